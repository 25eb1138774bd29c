(** Proofs about the parameter machine that hold for every arithmetic. *)

From Coq Require Import ZArith List Bool Arith Lia.
From Verif Require Import Exn PieModel PieSpec.
Import ListNotations.
Open Scope exn_scope.

Section Gen.
Context {N : num}.
Notation state := (st N).

Lemma upd_same : forall A (f : nat -> A) p a, upd f p a p = a.
Proof. intros; unfold upd; now rewrite Nat.eqb_refl. Qed.
Lemma upd_other : forall A (f : nat -> A) p q a, q <> p -> upd f p a q = f q.
Proof. intros; unfold upd. destruct (Nat.eqb_spec q p); congruence. Qed.

Lemma status_eqb_spec : forall a b, reflect (a = b) (status_eqb a b).
Proof. intros [] []; simpl; constructor; congruence. Qed.
Lemma status_eqb_refl : forall a, status_eqb a a = true.
Proof. now intros []. Qed.

Lemma bind_ok : forall S A B (m : S -> S * res A) (k : A -> S -> S * res B) s s1 a,
  m s = (s1, Ok a) -> bind m k s = k a s1.
Proof. intros. unfold bind. now rewrite H. Qed.
Lemma bind_err : forall S A B (m : S -> S * res A) (k : A -> S -> S * res B) s s1 e,
  m s = (s1, Err e) -> bind m k s = (s1, Err e).
Proof. intros. unfold bind. now rewrite H. Qed.
Lemma bind_assoc : forall S A B C (m : S -> S * res A) (k : A -> S -> S * res B)
    (k' : B -> S -> S * res C) s,
  bind (bind m k) k' s = bind m (fun a => bind (k a) k') s.
Proof. intros. unfold bind. destruct (m s) as [? [|]]; reflexivity. Qed.
Lemma flat_map_ext_in : forall A B (f g : A -> list B) l,
  (forall a, In a l -> f a = g a) -> flat_map f l = flat_map g l.
Proof.
  induction l; intros H; cbn; [reflexivity|].
  rewrite H, IHl; auto; [intros; apply H; now right | now left].
Qed.

(** ** Exact results of the primitive pieces *)

Definition value_evs (h : pst N) (p : nat) (v : N) : list (event N) :=
  map (fun l => EvValue l p (Some v)) (p_lst h).

Lemma set_value__eq : forall p v (s : state),
  set_value_ p v s
  = (log_ev (value_evs (ps s p) p v) (upd_p p (with_value v) s), Ok tt).
Proof.
  intros. unfold set_value_, bind, put, modify, hnd, value_evs. simpl.
  rewrite upd_same. reflexivity.
Qed.

Definition rewound (v : N) (h : pst N) : pst N := with_value v (with_num 0 h).

(** State after first_step. *)
Lemma first_step_eq : forall p (s : state) v,
  p_status (ps s p) = Stepping -> p_slo (ps s p) = Some v ->
  exists s', first_step p s = (s', Ok tt)
    /\ (forall q, ps s' q = upd (ps s) p (rewound v (ps s p)) q)
    /\ fixedl s' = fixedl s /\ varyl s' = varyl s /\ stepl s' = stepl s
    /\ info s' = info s
    /\ trace s' = trace s ++ value_evs (ps s p) p v.
Proof.
  intros p s v Hs Hv. unfold first_step, bind, hnd, put, modify, attr.
  rewrite Hs, Hv. cbn [status_eqb]. rewrite set_value__eq.
  eexists; split; [reflexivity|]. cbn.
  repeat split; try reflexivity.
  - intros q. unfold upd. destruct (Nat.eqb_spec q p); [|reflexivity].
    subst. rewrite Nat.eqb_refl. reflexivity.
  - unfold value_evs. rewrite upd_same. reflexivity.
Qed.

Definition ready (h : pst N) : Prop :=
  p_status h = Stepping /\ exists v, p_slo h = Some v.

Definition mem (p : nat) (l : list nat) : bool := existsb (Nat.eqb p) l.
Lemma mem_In : forall p l, mem p l = true <-> In p l.
Proof.
  intros; unfold mem; rewrite existsb_exists; split.
  - intros (x & H & E). apply Nat.eqb_eq in E. now subst.
  - intros H; exists p; now rewrite Nat.eqb_refl.
Qed.
Lemma mem_spec : forall p l, reflect (In p l) (mem p l).
Proof.
  intros. destruct (mem p l) eqn:E; constructor.
  - now apply mem_In.
  - intro H; apply mem_In in H; congruence.
Qed.

Definition rewind (h : pst N) : pst N :=
  match p_slo h with Some v => rewound v h | None => h end.
Definition rewind_evs (s : state) (p : nat) : list (event N) :=
  match p_slo (ps s p) with Some v => value_evs (ps s p) p v | None => [] end.

Lemma reset_loop_eq : forall l (s : state),
  NoDup l -> (forall p, In p l -> ready (ps s p)) ->
  exists s',
    for_each l (fun p => first_step p;;; modify (set_info p (Some Nextd))) s = (s', Ok tt)
    /\ (forall q, ps s' q = if mem q l then rewind (ps s q) else ps s q)
    /\ fixedl s' = fixedl s /\ varyl s' = varyl s /\ stepl s' = stepl s
    /\ (forall q, info s' q = if mem q l then Some Nextd else info s q)
    /\ trace s' = trace s ++ flat_map (rewind_evs s) l.
Proof.
  induction l as [|p l IH]; intros s ND H; cbn [for_each].
  - exists s. cbn. rewrite app_nil_r. repeat split; reflexivity.
  - inversion ND as [|? ? Hnin ND']; subst.
    destruct (H p (or_introl eq_refl)) as [Hst [v Hv]].
    destruct (first_step_eq p s v Hst Hv) as (s1 & E1 & P1 & F1 & V1 & S1 & I1 & T1).
    rewrite bind_assoc. rewrite (bind_ok _ _ _ _ _ _ _ _ E1).
    set (s2 := set_info p (Some Nextd) s1).
    assert (P2 : forall q, q <> p -> ps s2 q = ps s q).
    { intros q Hq. unfold s2; cbn. rewrite P1. now apply upd_other. }
    destruct (IH s2) as (s' & E & P & F & V' & S & I & T); auto.
    { intros q Hq. rewrite P2; [|intros ->; contradiction]. apply H; now right. }
    exists s'. split.
    { exact E. }
    repeat split.
    + intros q. rewrite P. cbn [mem existsb].
      destruct (Nat.eqb_spec q p) as [->|Hq]; cbn [orb].
      * destruct (mem_spec p l); [contradiction|].
        unfold s2; cbn. rewrite P1, upd_same. unfold rewind. now rewrite Hv.
      * rewrite P2 by assumption. reflexivity.
    + rewrite F; exact F1.
    + rewrite V'; exact V1.
    + rewrite S; exact S1.
    + intros q. rewrite I. cbn [mem existsb].
      destruct (Nat.eqb_spec q p) as [->|Hq]; cbn [orb].
      * destruct (mem_spec p l); [contradiction|]. unfold s2; cbn. now rewrite upd_same.
      * change (existsb (Nat.eqb q) l) with (mem q l).
        destruct (mem q l); [reflexivity|]. unfold s2; cbn.
        rewrite upd_other by assumption. now rewrite I1.
    + rewrite T. unfold s2 at 1; cbn [set_info trace]. rewrite T1, <- app_assoc.
      f_equal. cbn [flat_map]. f_equal.
      * unfold rewind_evs. now rewrite Hv.
      * apply flat_map_ext_in. intros q Hq. unfold rewind_evs.
        rewrite P2; [reflexivity|]. intros ->; contradiction.
Qed.

(** What reset_steps does to a state in which it cannot fail. *)
Record reset_rel (s s' : state) : Prop := {
  rr_ps : forall q, ps s' q = if mem q (stepl s) then rewind (ps s q) else ps s q;
  rr_f : fixedl s' = fixedl s;
  rr_v : varyl s' = varyl s;
  rr_s : stepl s' = stepl s;
  rr_i : forall q, info s' q = if mem q (stepl s) then Some Nextd else info s q;
  rr_t : trace s' = trace s ++ flat_map (rewind_evs s) (stepl s)
}.

Lemma reset_steps_eq : forall s : state,
  NoDup (stepl s) -> (forall p, In p (stepl s) -> ready (ps s p)) ->
  exists s', reset_steps s = (s', Ok tt) /\ reset_rel s s'.
Proof.
  intros s ND H. destruct (reset_loop_eq (stepl s) s ND H)
    as (s' & E & P & F & V' & S & I & T).
  exists s'. split; [exact E|]. now constructor.
Qed.

(** ** The invariant *)

Record hok (h : pst N) : Prop := {
  ho_undef : p_status h = Undef -> h = pst0;
  ho_val : p_status h <> Undef -> p_value h <> None;
  ho_step : p_status h = Stepping ->
      p_slo h <> None /\ p_shi h <> None /\ p_steps h <> None
      /\ p_num h <> None /\ p_stype h <> None;
  ho_vary : p_status h = Varying -> p_bnd h <> None /\ p_delta h <> None;
  ho_lst : exists l, p_lst h = 0 :: l;
  ho_lst_nd : NoDup (p_lst h)
}.

Record Inv (s : state) : Prop := {
  iv_lm : lists_match_status s;
  iv_h : forall p, hok (ps s p)
}.

Lemma hok0 : hok (@pst0 N).
Proof.
  constructor; cbn; try congruence.
  - now exists [].
  - repeat constructor; auto.
Qed.

Lemma Inv0 : Inv (@st0 N).
Proof.
  constructor; cbn.
  - constructor; cbn; try (intros; split; [tauto|discriminate]); constructor.
  - intros _; exact hok0.
Qed.

Lemma hok_ready : forall h, hok h -> p_status h = Stepping -> ready h.
Proof.
  intros h H E. split; [exact E|]. destruct (ho_step h H E) as [H1 _].
  destruct (p_slo h); [eauto|congruence].
Qed.

Lemma rewind_status : forall h, p_status (rewind h) = p_status h.
Proof. intros h. unfold rewind. destruct (p_slo h); reflexivity. Qed.

Lemma hok_rewind : forall h, p_status h = Stepping -> hok h -> hok (rewind h).
Proof.
  intros h E [H1 H2 H3 H4 H5]. unfold rewind, rewound.
  destruct (H3 E) as (A & B & C & D & F).
  destruct (p_slo h) eqn:Es; [|congruence].
  constructor; cbn; try congruence; try (rewrite E; congruence); auto.
  intros _. rewrite Es. repeat split; congruence.
Qed.

(** ** remove1 *)
Lemma remove1_in : forall p l, In p l ->
  exists l1 l2, l = l1 ++ p :: l2 /\ ~ In p l1 /\ remove1 p l = Some (l1 ++ l2).
Proof.
  induction l as [|q l IH]; [intros []|]. intros H. cbn.
  destruct (Nat.eqb_spec q p) as [->|Hq].
  - exists [], l. cbn. auto.
  - destruct H as [->|H]; [congruence|].
    destruct (IH H) as (l1 & l2 & -> & Hn & ->).
    exists (q :: l1), l2. cbn. repeat split; auto. intros [|]; auto.
Qed.

Lemma in_app_one : forall (q p : nat) l, In q (l ++ [p]) <-> In q l \/ q = p.
Proof. intros. rewrite in_app_iff. cbn. intuition. Qed.

Lemma NoDup_app_one : forall (p : nat) l, NoDup l -> ~ In p l -> NoDup (l ++ [p]).
Proof.
  intros p l ND H. apply NoDup_rev in ND. rewrite <- (rev_involutive (l ++ [p])).
  apply NoDup_rev. rewrite rev_app_distr. cbn. constructor; [|exact ND].
  now rewrite <- in_rev.
Qed.

Lemma in_mid : forall (q p : nat) l1 l2,
  NoDup (l1 ++ p :: l2) -> (In q (l1 ++ l2) <-> In q (l1 ++ p :: l2) /\ q <> p).
Proof.
  intros q p l1 l2 ND. apply NoDup_remove in ND as [ND Hn].
  rewrite !in_app_iff in *. cbn. split.
  - intros H. split; [tauto|]. intros ->; tauto.
  - intros [[H|[H|H]] Hq]; auto; congruence.
Qed.

(** ** Status changes. *)
Definition involves (a b : status) : bool :=
  status_eqb a Stepping || status_eqb b Stepping.

Definition without (p : nat) (l : list nat) : list nat :=
  filter (fun q => negb (Nat.eqb q p)) l.

Definition move (l : list nat) (p : nat) (old x this : status) : list nat :=
  if status_eqb old x then l
  else without p l ++ (if status_eqb x this then [p] else []).

Lemma without_notin : forall p l, ~ In p l -> without p l = l.
Proof.
  induction l as [|q l IH]; intros H; [reflexivity|]. cbn.
  destruct (Nat.eqb_spec q p) as [->|]; [exfalso; apply H; now left|].
  cbn. fold (without p l). rewrite IH; auto. intros K; apply H; now right.
Qed.
Lemma remove1_without : forall p l, NoDup l -> In p l ->
  remove1 p l = Some (without p l).
Proof.
  intros p l ND H. induction l as [|q l IH]; [destruct H|].
  inversion ND; subst. cbn. destruct (Nat.eqb_spec q p) as [->|Hq]; cbn;
    fold (without p l).
  - now rewrite without_notin.
  - destruct H as [->|H]; [congruence|]. now rewrite IH.
Qed.
Lemma in_without : forall q p l, In q (without p l) <-> In q l /\ q <> p.
Proof.
  intros. unfold without. rewrite filter_In.
  destruct (Nat.eqb_spec q p); cbn; intuition congruence.
Qed.
Lemma NoDup_without : forall p l, NoDup l -> NoDup (without p l).
Proof. intros. now apply NoDup_filter. Qed.

Arguments mem : simpl never.
Arguments without : simpl never.

(** [chg s p x s'] : s' differs from s by parameter p having status x, lists
    and stepping_info adjusted, and all stepping parameters rewound if p is or
    was stepping. *)
Definition base (s : state) (p : nat) (x : status) (q : nat) : pst N :=
  upd (ps s) p (with_status x (ps s p)) q.

Record chg (s : state) (p : nat) (x : status) (s' : state) : Prop := {
  cg_ps : forall q,
     ps s' q =
       if involves (p_status (ps s p)) x && mem q (stepl s')
       then rewind (base s p x q) else base s p x q;
  cg_f : fixedl s' = move (fixedl s) p (p_status (ps s p)) x Fixed;
  cg_v : varyl s' = move (varyl s) p (p_status (ps s p)) x Varying;
  cg_s : stepl s' = move (stepl s) p (p_status (ps s p)) x Stepping;
  cg_i : forall q, info s' q =
     if involves (p_status (ps s p)) x
     then (if mem q (stepl s') then Some Nextd else None) else info s q
}.

Definition chg_evs (s : state) (p : nat) (x : status) (sl : list nat) : list (event N) :=
  if involves (p_status (ps s p)) x
  then flat_map (fun q => match p_slo (base s p x q) with
                          | Some v => value_evs (base s p x q) q v
                          | None => [] end) sl
  else [].

Lemma In_move : forall l p old x this q,
  (forall r, In r l <-> (if Nat.eqb r p then old = this else In r l)) ->
  In q (move l p old x this) <-> (if Nat.eqb q p then x = this else In q l).
Proof.
  intros l p old x this q H. unfold move.
  destruct (status_eqb_spec old x) as [->|Hne].
  - apply H.
  - rewrite in_app_iff, in_without. destruct (status_eqb_spec x this) as [->|Hx].
    + cbn. destruct (Nat.eqb_spec q p) as [->|]; intuition congruence.
    + cbn. destruct (Nat.eqb_spec q p) as [->|]; intuition congruence.
Qed.

Lemma NoDup_move : forall l p old x this,
  NoDup l -> NoDup (move l p old x this).
Proof.
  intros l p old x this ND. unfold move. destruct (status_eqb old x); [exact ND|].
  destruct (status_eqb x this).
  - apply NoDup_app_one; [now apply NoDup_without|]. rewrite in_without. tauto.
  - rewrite app_nil_r. now apply NoDup_without.
Qed.

Lemma base_status : forall s p x q,
  p_status (base s p x q) = if Nat.eqb q p then x else p_status (ps s q).
Proof. intros. unfold base, upd. destruct (Nat.eqb_spec q p); [subst|]; reflexivity. Qed.

Lemma chg_status : forall s p x s' q, chg s p x s' ->
  p_status (ps s' q) = if Nat.eqb q p then x else p_status (ps s q).
Proof.
  intros s p x s' q C. rewrite (cg_ps _ _ _ _ C q).
  destruct (_ && _); [rewrite rewind_status|]; apply base_status.
Qed.

Lemma chg_lists : forall s p x s',
  lists_match_status s -> chg s p x s' -> lists_match_status s'.
Proof.
  intros s p x s' L C.
  assert (HS : forall q, In q (stepl s') <-> p_status (ps s' q) = Stepping).
  { intros q. rewrite (cg_s _ _ _ _ C), (chg_status _ _ _ _ q C), In_move.
    - destruct (Nat.eqb_spec q p); [tauto|]. apply L.
    - intros r. destruct (Nat.eqb_spec r p) as [->|]; [apply L|tauto]. }
  constructor; auto.
  - intros q. rewrite (cg_f _ _ _ _ C), (chg_status _ _ _ _ q C), In_move.
    + destruct (Nat.eqb_spec q p); [tauto|]. apply L.
    + intros r. destruct (Nat.eqb_spec r p) as [->|]; [apply L|tauto].
  - intros q. rewrite (cg_v _ _ _ _ C), (chg_status _ _ _ _ q C), In_move.
    + destruct (Nat.eqb_spec q p); [tauto|]. apply L.
    + intros r. destruct (Nat.eqb_spec r p) as [->|]; [apply L|tauto].
  - intros q. rewrite (cg_i _ _ _ _ C q).
    destruct (involves (p_status (ps s p)) x) eqn:EI.
    + rewrite <- HS. destruct (mem_spec q (stepl s')); split; intros; congruence || tauto.
    + rewrite (chg_status _ _ _ _ q C). destruct (Nat.eqb_spec q p) as [->|].
      * rewrite (lm_info s L p). unfold involves in EI.
        apply orb_false_iff in EI as [E1 E2].
        split; intros E; [rewrite E in E1|rewrite E in E2]; discriminate.
      * apply L.
  - rewrite (cg_f _ _ _ _ C). apply NoDup_move, L.
  - rewrite (cg_v _ _ _ _ C). apply NoDup_move, L.
  - rewrite (cg_s _ _ _ _ C). apply NoDup_move, L.
Qed.

(** State handed to the owner's bookkeeping. *)
Definition presented (s : state) (p : nat) (x : status) (evs : list (event N)) : state :=
  log_ev evs (upd_p p (with_status x) s).

Ltac lists_simpl L p :=
  let Hf := fresh in let Hv := fresh in let Hs := fresh in
  pose proof (lm_fixed _ L p) as Hf;
  pose proof (lm_vary _ L p) as Hv;
  pose proof (lm_step _ L p) as Hs.

Lemma start_stepping_eq : forall p (s : state),
  NoDup (stepl s) -> ~ In p (stepl s) ->
  (forall q, In q (stepl s) -> ready (ps s q)) -> ready (ps s p) ->
  exists s', start_stepping p s = (s', Ok tt)
   /\ reset_rel (set_info p (Some Nextd)
         (set_lists (fixedl s) (varyl s) (stepl s ++ [p]) s)) s'.
Proof.
  intros p s ND Hn Hr Hp. unfold start_stepping, bind, get, modify. cbn beta iota.
  apply reset_steps_eq; cbn.
  - now apply NoDup_app_one.
  - intros q Hq. apply in_app_one in Hq as [Hq| ->]; auto.
Qed.

Lemma on_change_eq : forall (s : state) p x evs,
  lists_match_status s -> x <> Undef ->
  (forall q, p_status (base s p x q) = Stepping -> ready (base s p x q)) ->
  exists s', on_param_status_change p (p_status (ps s p)) x (presented s p x evs) = (s', Ok tt)
    /\ chg s p x s'
    /\ trace s' = trace s ++ evs ++ chg_evs s p x (stepl s').
Proof.
  intros s p x evs L Hx Hr.
  set (s1 := presented s p x evs).
  assert (Hps : forall q, ps s1 q = base s p x q) by reflexivity.
  assert (Hstep1 : forall q, q <> p -> In q (stepl s) -> ready (ps s1 q)).
  { intros q Hq Hi. rewrite Hps. apply Hr. rewrite base_status.
    destruct (Nat.eqb_spec q p); [contradiction|]. now apply L. }
  assert (Wf : p_status (ps s p) <> Fixed -> without p (fixedl s) = fixedl s).
  { intros H. apply without_notin. now rewrite (lm_fixed _ L). }
  assert (Wv : p_status (ps s p) <> Varying -> without p (varyl s) = varyl s).
  { intros H. apply without_notin. now rewrite (lm_vary _ L). }
  assert (Ws : p_status (ps s p) <> Stepping -> without p (stepl s) = stepl s).
  { intros H. apply without_notin. now rewrite (lm_step _ L). }
  assert (Rf : p_status (ps s p) = Fixed -> remove1 p (fixedl s) = Some (without p (fixedl s))).
  { intros H. apply remove1_without; [apply L|now apply L]. }
  assert (Rv : p_status (ps s p) = Varying -> remove1 p (varyl s) = Some (without p (varyl s))).
  { intros H. apply remove1_without; [apply L|now apply L]. }
  assert (Rs : p_status (ps s p) = Stepping -> remove1 p (stepl s) = Some (without p (stepl s))).
  { intros H. apply remove1_without; [apply L|now apply L]. }
  assert (Start : forall s2 : state, x = Stepping -> p_status (ps s p) <> Stepping ->
     ps s2 = ps s1 -> fixedl s2 = without p (fixedl s) -> varyl s2 = without p (varyl s) ->
     stepl s2 = stepl s -> info s2 = info s -> trace s2 = trace s1 ->
     exists s', start_stepping p s2 = (s', Ok tt) /\ chg s p x s'
        /\ trace s' = trace s ++ evs ++ chg_evs s p x (stepl s')).
  { intros s2 -> Ho E1 E2 E3 E4 E5 E6.
    destruct (start_stepping_eq p s2) as (s' & E & R).
    - rewrite E4. apply L.
    - rewrite E4. now rewrite (lm_step _ L).
    - intros q Hq. rewrite E1. rewrite E4 in Hq. apply Hstep1; [|exact Hq].
      intros ->. apply Ho. now apply L.
    - rewrite E1, Hps. apply Hr. rewrite base_status. now rewrite Nat.eqb_refl.
    - exists s'. split; [exact E|]. destruct R as [R1 R2 R3 R4 R5 R6]; cbn in R1, R2, R3, R4, R5, R6.
      assert (EI : involves (p_status (ps s p)) Stepping = true).
      { unfold involves. now rewrite orb_true_r. }
      assert (EE : status_eqb (p_status (ps s p)) Stepping = false).
      { destruct (status_eqb_spec (p_status (ps s p)) Stepping); congruence. }
      rewrite E4 in *.
      split; [constructor|].
      + intros q. rewrite R1, R4, EI, E1. reflexivity.
      + rewrite R2, E2. unfold move. rewrite EE. cbn. now rewrite app_nil_r.
      + rewrite R3, E3. unfold move. rewrite EE. cbn. now rewrite app_nil_r.
      + rewrite R4. unfold move. rewrite EE. cbn [status_eqb]. now rewrite Ws.
      + intros q. rewrite EI, R5, R4. destruct (mem_spec q (stepl s ++ [p])) as [|Hq]; [reflexivity|].
        rewrite in_app_one in Hq. unfold upd. destruct (Nat.eqb_spec q p); [tauto|].
        rewrite E5. destruct (info s q) eqn:Ei; [|reflexivity].
        exfalso. apply Hq. left. apply L. rewrite <- (lm_info _ L). congruence.
      + rewrite R6, E6. unfold s1, presented; cbn. rewrite <- app_assoc. do 2 f_equal.
        unfold chg_evs. rewrite EI, R4. apply flat_map_ext_in. intros q Hq.
        unfold rewind_evs; cbn. now rewrite E1. }
  assert (Stop : p_status (ps s p) = Stepping -> x <> Stepping ->
     exists s3, reset_steps (set_lists (fixedl s) (varyl s) (without p (stepl s)) s1) = (s3, Ok tt)
       /\ info s3 p <> None
       /\ chg s p x (set_lists (move (fixedl s) p Stepping x Fixed)
            (move (varyl s) p Stepping x Varying) (stepl s3) (set_info p None s3))
       /\ fixedl s3 = fixedl s /\ varyl s3 = varyl s
       /\ trace s3 = trace s ++ evs ++ chg_evs s p x (stepl s3)).
  { intros Ho Hn.
    destruct (reset_steps_eq (set_lists (fixedl s) (varyl s) (without p (stepl s)) s1)) as (s3 & E & R).
    - cbn. apply NoDup_without, L.
    - cbn. intros q Hq. apply in_without in Hq as [Hq Hqp]. now apply Hstep1.
    - exists s3. split; [exact E|]. destruct R as [R1 R2 R3 R4 R5 R6]; cbn in R1, R2, R3, R4, R5, R6.
      assert (EI : involves (p_status (ps s p)) x = true).
      { unfold involves. now rewrite Ho. }
      assert (EX : status_eqb x Stepping = false).
      { destruct (status_eqb_spec x Stepping); congruence. }
      assert (EE : status_eqb (p_status (ps s p)) x = false).
      { rewrite Ho. destruct (status_eqb_spec Stepping x); congruence. }
      split; [|split; [constructor|split; [|split]]]; cbn.
      + rewrite R5. destruct (mem_spec p (without p (stepl s))) as [H|_].
        * apply in_without in H. tauto.
        * apply L. exact Ho.
      + intros q. rewrite EI, R4. cbn [andb]. rewrite R1. reflexivity.
      + now rewrite Ho.
      + now rewrite Ho.
      + rewrite R4. unfold move. rewrite EE, EX. now rewrite app_nil_r.
      + intros q. rewrite EI, R4. unfold upd. destruct (Nat.eqb_spec q p) as [->|Hq].
        * destruct (mem_spec p (without p (stepl s))) as [H|_]; [|reflexivity].
          apply in_without in H. tauto.
        * rewrite R5. destruct (mem_spec q (without p (stepl s))) as [|H]; [reflexivity|].
          destruct (info s q) eqn:Ei; [|reflexivity].
          exfalso. apply H. apply in_without. split; [|exact Hq].
          apply L. rewrite <- (lm_info _ L). congruence.
      + exact R2.
      + exact R3.
      + rewrite R6. unfold s1, presented; cbn. rewrite <- app_assoc. do 2 f_equal.
        unfold chg_evs. now rewrite EI, R4. }
  unfold on_param_status_change.
  destruct (p_status (ps s p)) eqn:Eo; destruct x eqn:Ex; try congruence;
    cbn [status_eqb].
  (* undef -> fixed *)
  - unfold append_fixed, bind, get, modify. eexists; split; [reflexivity|].
    split; [constructor|]; rewrite ?Eo; cbn; try reflexivity.
    + unfold move; cbn. rewrite Wf; congruence.
    + unfold move; cbn. rewrite Wv, app_nil_r; congruence.
    + unfold move; cbn. rewrite Ws, app_nil_r; congruence.
    + unfold chg_evs; rewrite Eo; cbn. now rewrite app_nil_r.
  (* undef -> stepping *)
  - apply Start; cbn; auto; try congruence.
    + rewrite Wf; congruence.
    + rewrite Wv; congruence.
  (* undef -> varying *)
  - unfold append_varying, bind, get, modify. eexists; split; [reflexivity|].
    split; [constructor|]; rewrite ?Eo; cbn; try reflexivity.
    + unfold move; cbn. rewrite Wf, app_nil_r; congruence.
    + unfold move; cbn. rewrite Wv; congruence.
    + unfold move; cbn. rewrite Ws, app_nil_r; congruence.
    + unfold chg_evs; rewrite Eo; cbn. now rewrite app_nil_r.
  (* fixed -> fixed *)
  - exists s1. split; [reflexivity|]. split; [constructor|]; rewrite ?Eo; cbn; try reflexivity.
    unfold chg_evs; rewrite Eo; cbn. now rewrite app_nil_r.
  (* fixed -> stepping *)
  - unfold bind at 1, get. cbn [s1 presented log_ev upd_p fixedl varyl stepl].
    rewrite Rf by reflexivity. unfold bind at 1, attr. unfold bind at 1, modify.
    apply Start; cbn; auto; try congruence.
    rewrite Wv; congruence.
  (* fixed -> varying *)
  - unfold bind at 1, get. cbn [s1 presented log_ev upd_p fixedl varyl stepl].
    rewrite Rf by reflexivity. unfold append_varying, bind, attr, modify, get.
    eexists; split; [reflexivity|].
    split; [constructor|]; rewrite ?Eo; cbn; try reflexivity.
    + unfold move; cbn. now rewrite app_nil_r.
    + unfold move; cbn. rewrite Wv; congruence.
    + unfold move; cbn. rewrite Ws, app_nil_r; congruence.
    + unfold chg_evs; rewrite Eo; cbn. now rewrite app_nil_r.
  (* stepping -> fixed *)
  - destruct (Stop eq_refl ltac:(congruence)) as (s3 & E & I & C & F & V' & T).
    unfold bind at 1, get. cbn [s1 presented log_ev upd_p fixedl varyl stepl].
    rewrite Rs by reflexivity. unfold bind at 1, attr. unfold bind at 1, modify.
    rewrite (bind_ok _ _ _ _ _ _ _ _ E). unfold bind at 1.
    destruct (info s3 p) eqn:Ei; [|congruence].
    unfold append_fixed, bind, get. cbn.
    eexists; split; [reflexivity|]. split; [|exact T].
    unfold move in C; cbn in C. rewrite app_nil_r, Wf, Wv in C by congruence.
    rewrite F, V'. exact C.
  (* stepping -> stepping *)
  - unfold bind, modify.
    destruct (reset_steps_eq (set_info p (Some Nextd) s1)) as (s3 & E & R).
    + cbn. apply L.
    + cbn. intros q Hq. destruct (Nat.eq_dec q p) as [->|Hqp]; [|now apply Hstep1].
      fold (base s p Stepping p). apply Hr. rewrite base_status. now rewrite Nat.eqb_refl.
    + exists s3. split; [exact E|].
      destruct R as [R1 R2 R3 R4 R5 R6]; cbn in R1, R2, R3, R4, R5, R6.
      split; [constructor|]; rewrite ?Eo; unfold move; cbn [status_eqb involves orb andb]; auto.
      * intros q. rewrite R1, R4. reflexivity.
      * intros q. rewrite R5, R4. destruct (mem_spec q (stepl s)) as [|H]; [reflexivity|].
        unfold upd. destruct (Nat.eqb_spec q p) as [->|Hq].
        -- exfalso. apply H. now apply L.
        -- destruct (info s q) eqn:Ei; [|reflexivity].
           exfalso. apply H. apply L. rewrite <- (lm_info _ L). congruence.
      * rewrite R6, <- app_assoc. do 2 f_equal. unfold chg_evs. rewrite Eo, R4. reflexivity.
  (* stepping -> varying *)
  - destruct (Stop eq_refl ltac:(congruence)) as (s3 & E & I & C & F & V' & T).
    unfold bind at 1, get. cbn [s1 presented log_ev upd_p fixedl varyl stepl].
    rewrite Rs by reflexivity. unfold bind at 1, attr. unfold bind at 1, modify.
    rewrite (bind_ok _ _ _ _ _ _ _ _ E). unfold bind at 1.
    destruct (info s3 p) eqn:Ei; [|congruence].
    unfold append_varying, bind, get. cbn.
    eexists; split; [reflexivity|]. split; [|exact T].
    unfold move in C; cbn in C. rewrite app_nil_r, Wf, Wv in C by congruence.
    rewrite F, V'. exact C.
  (* varying -> fixed *)
  - unfold bind at 1, get. cbn [s1 presented log_ev upd_p fixedl varyl stepl].
    rewrite Rv by reflexivity. unfold append_fixed, bind, attr, modify, get.
    eexists; split; [reflexivity|].
    split; [constructor|]; rewrite ?Eo; cbn; try reflexivity.
    + unfold move; cbn. rewrite Wf; congruence.
    + unfold move; cbn. now rewrite app_nil_r.
    + unfold move; cbn. rewrite Ws, app_nil_r; congruence.
    + unfold chg_evs; rewrite Eo; cbn. now rewrite app_nil_r.
  (* varying -> stepping *)
  - unfold bind at 1, get. cbn [s1 presented log_ev upd_p fixedl varyl stepl].
    rewrite Rv by reflexivity. unfold bind at 1, attr. unfold bind at 1, modify.
    apply Start; cbn; auto; try congruence.
    rewrite Wf; congruence.
  (* varying -> varying *)
  - exists s1. split; [reflexivity|]. split; [constructor|]; rewrite ?Eo; cbn; try reflexivity.
    unfold chg_evs; rewrite Eo; cbn. now rewrite app_nil_r.
Qed.

(** Notifying listeners other than the owner only records events. *)
Lemma notify_rest : forall l p old x (s : state), ~ In 0 l ->
  p_status (ps s p) = x ->
  for_each l (notify_status p old x) s
  = (log_ev (map (fun k => EvStatus k p old x) l) s, Ok tt).
Proof.
  induction l as [|k l IH]; intros p old x s H Hx; cbn [for_each map].
  - unfold ret, log_ev. rewrite app_nil_r. now destruct s.
  - assert (Hk : k <> 0) by (intros ->; apply H; now left).
    unfold bind at 1. unfold notify_status at 1, bind, modify, hnd.
    destruct (Nat.eqb_spec k 0); [contradiction|]. cbn [ret]. rewrite Hx.
    unfold ret. rewrite IH; [|intros K; apply H; now right|exact Hx].
    unfold log_ev; cbn. now rewrite <- app_assoc.
Qed.

Lemma chg_log : forall s p x s' evs, chg s p x s' -> chg s p x (log_ev evs s').
Proof. intros s p x s' evs [A B C D E]. constructor; cbn; auto. Qed.

Lemma set_status_eq : forall (s : state) p x,
  lists_match_status s -> x <> Undef ->
  (forall q, p_status (base s p x q) = Stepping -> ready (base s p x q)) ->
  (exists l, p_lst (ps s p) = 0 :: l) -> NoDup (p_lst (ps s p)) ->
  exists s', set_status_ p x s = (s', Ok tt)
    /\ chg s p x s'
    /\ trace s' = trace s ++ EvStatus 0 p (p_status (ps s p)) x
          :: chg_evs s p x (stepl s')
          ++ map (fun k => EvStatus k p (p_status (ps s p)) x) (tl (p_lst (ps s p))).
Proof.
  intros s p x L Hx Hr [l Hl] ND.
  set (e := EvStatus 0 p (p_status (ps s p)) x).
  destruct (on_change_eq s p x [e] L Hx Hr) as (s1 & E & C & T).
  exists (log_ev (map (fun k => EvStatus k p (p_status (ps s p)) x) l) s1).
  unfold set_status_, bind, hnd, put, modify. rewrite Hl. cbn [for_each tl].
  split; [|split; [now apply chg_log|]].
  - unfold bind. unfold notify_status at 1. unfold bind, modify, hnd. cbn [Nat.eqb].
    cbn [upd_p ps]. rewrite upd_same. cbn [with_status p_status]. fold e. change (log_ev [e] (upd_p p (with_status x) s)) with (presented s p x [e]).
    rewrite E. apply notify_rest.
    + rewrite Hl in ND. now inversion ND.
    + rewrite (chg_status _ _ _ _ p C). now rewrite Nat.eqb_refl.
  - cbn. rewrite T. cbn. now rewrite <- !app_assoc.
Qed.

(** ** Symbolic execution of operations on one parameter *)

(** What an operation on parameter p may do to the others. *)
Definition frame (p : nat) (s s' : state) : Prop :=
  forall q, q <> p ->
    ps s' q = ps s q
    \/ (p_status (ps s q) = Stepping /\ ps s' q = rewind (ps s q)).

Lemma frame_refl : forall p s, frame p s s.
Proof. intros p s q _. now left. Qed.

Lemma rewind_idem : forall h, rewind (rewind h) = rewind h.
Proof. intros h. unfold rewind. destruct (p_slo h) eqn:E; cbn; rewrite ?E; reflexivity. Qed.

Lemma frame_trans : forall p s1 s2 s3, frame p s1 s2 -> frame p s2 s3 -> frame p s1 s3.
Proof.
  intros p s1 s2 s3 A B q Hq.
  destruct (A q Hq) as [A'|[A1 A2]], (B q Hq) as [B'|[B1 B2]].
  - left; congruence.
  - right. rewrite <- A'. auto.
  - right. split; [exact A1|congruence].
  - right. split; [exact A1|]. rewrite B2, A2. apply rewind_idem.
Qed.

Lemma lists_upd : forall p f (s : state),
  p_status (f (ps s p)) = p_status (ps s p) ->
  lists_match_status s -> lists_match_status (upd_p p f s).
Proof.
  intros p f s E L.
  assert (K : forall q, p_status (ps (upd_p p f s) q) = p_status (ps s q)).
  { intros q. cbn. unfold upd. destruct (Nat.eqb_spec q p); [subst|]; auto. }
  constructor; try (intros q; rewrite K); apply L.
Qed.

Lemma lists_log : forall evs (s : state),
  lists_match_status s -> lists_match_status (log_ev evs s).
Proof. intros evs s []. constructor; auto. Qed.

(** ** Announcements *)
Lemma latest_app : forall vs1 vs2 (v : option N),
  latest v (vs1 ++ vs2) = latest (latest v vs1) vs2.
Proof. induction vs1; cbn; auto. Qed.
Lemma leads_app : forall xs1 xs2 a b c,
  leads a xs1 b -> leads b xs2 c -> leads a (xs1 ++ xs2) c.
Proof.
  induction xs1 as [|[o n] xs1 IH]; cbn; intros xs2 a b c H1 H2.
  - now subst.
  - destruct H1. split; eauto.
Qed.

Lemma ann_trans : forall s1 s2 s3 : state,
  announced s1 s2 -> announced s2 s3 -> announced s1 s3.
Proof.
  intros s1 s2 s3 (n1 & T1 & A1) (n2 & T2 & A2).
  exists (n1 ++ n2). split; [now rewrite T2, T1, app_assoc|].
  intros q. destruct (A1 q) as (L1 & (v1 & V1 & W1) & (x1 & X1 & Y1)).
  destruct (A2 q) as (L2 & (v2 & V2 & W2) & (x2 & X2 & Y2)).
  rewrite L1 in *. split; [congruence|]. split.
  - exists (v1 ++ v2). rewrite filter_app, flat_map_app, latest_app. split; congruence.
  - exists (x1 ++ x2). rewrite filter_app, flat_map_app. split; [congruence|].
    eauto using leads_app.
Qed.

Lemma ann_quiet : forall s s' : state,
  trace s' = trace s ->
  (forall q, p_lst (ps s' q) = p_lst (ps s q) /\ p_value (ps s' q) = p_value (ps s q)
             /\ p_status (ps s' q) = p_status (ps s q)) ->
  announced s s'.
Proof.
  intros s s' T H. exists []. rewrite app_nil_r. split; [exact T|].
  intros q. destruct (H q) as (A & B & C). split; [exact A|].
  split; exists []; cbn; auto.
Qed.

Lemma ann_refl : forall s : state, announced s s.
Proof. intros s. now apply ann_quiet. Qed.

Lemma filter_tell_value : forall q p ls (v : N),
  filter (is_val q) (tell_value p ls v) = if Nat.eqb p q then tell_value p ls v else [].
Proof.
  unfold tell_value.
  induction ls as [|l ls IH]; intros v; cbn; [now destruct (Nat.eqb p q)|].
  rewrite IH. now destruct (Nat.eqb p q).
Qed.
Lemma filter_tell_value_s : forall q p ls (v : N),
  filter (is_stat q) (tell_value p ls v) = [].
Proof. unfold tell_value. induction ls; intros; cbn; auto. Qed.
Lemma filter_tell_status : forall q p ls c,
  filter (@is_stat N q) (tell_status p ls c) = if Nat.eqb p q then tell_status p ls c else [].
Proof.
  unfold tell_status.
  induction ls as [|l ls IH]; intros c; cbn; [now destruct (Nat.eqb p q)|].
  rewrite IH. now destruct (Nat.eqb p q).
Qed.
Lemma filter_tell_status_v : forall q p ls c,
  filter (@is_val N q) (tell_status p ls c) = [].
Proof. unfold tell_status. induction ls; intros; cbn; auto. Qed.

Lemma ann_setv : forall p v (s : state),
  announced s (log_ev (value_evs (ps s p) p v) (upd_p p (with_value v) s)).
Proof.
  intros p v s. exists (tell_value p (p_lst (ps s p)) v). split; [reflexivity|].
  intros q. cbn. unfold upd. rewrite filter_tell_value, filter_tell_value_s.
  rewrite (Nat.eqb_sym p q).
  destruct (Nat.eqb_spec q p) as [->|Hq]; cbn.
  - split; [reflexivity|]. split; [exists [v]|exists []]; cbn; auto.
    now rewrite app_nil_r.
  - split; [reflexivity|]. split; exists []; cbn; auto.
Qed.

Lemma filter_flat_map : forall A B (f : B -> bool) (g : A -> list B) l,
  filter f (flat_map g l) = flat_map (fun a => filter f (g a)) l.
Proof.
  induction l; cbn; auto. now rewrite filter_app, IHl.
Qed.

Lemma flat_map_nil : forall A B (l : list A), flat_map (fun _ => @nil B) l = [].
Proof. induction l; cbn; auto. Qed.

Lemma flat_map_pick : forall B (g : nat -> list B) q l, NoDup l ->
  flat_map (fun a => if Nat.eqb a q then g a else []) l = if mem q l then g q else [].
Proof.
  induction l as [|a l IH]; intros ND; [reflexivity|].
  inversion ND as [|? ? Hn ND']; subst. cbn [flat_map]. rewrite IH by assumption.
  unfold mem. cbn [existsb]. fold (mem q l). rewrite (Nat.eqb_sym q a).
  destruct (Nat.eqb_spec a q) as [->|]; cbn [orb]; [|reflexivity].
  destruct (mem_spec q l); [contradiction|]. apply app_nil_r.
Qed.

Lemma rewind_rest : forall h v, p_slo h = Some v ->
  p_lst (rewind h) = p_lst h /\ p_value (rewind h) = Some v.
Proof. intros h v E. unfold rewind. now rewrite E. Qed.

Lemma ann_chg : forall s p x s',
  NoDup (stepl s') -> (forall q, In q (stepl s') -> p_slo (base s p x q) <> None) ->
  chg s p x s' -> (exists l, p_lst (ps s p) = 0 :: l) ->
  trace s' = trace s ++ EvStatus 0 p (p_status (ps s p)) x
          :: chg_evs s p x (stepl s')
          ++ map (fun k => EvStatus k p (p_status (ps s p)) x) (tl (p_lst (ps s p))) ->
  announced s s'.
Proof.
  intros s p x s' ND Hslo C [l Hl] T.
  eexists; split; [exact T|]. intros q.
  set (rest := map (fun k => EvStatus k p (p_status (ps s p)) x) (tl (p_lst (ps s p)))).
  assert (Er : rest = tell_status p l (p_status (ps s p), x)).
  { unfold rest. rewrite Hl. reflexivity. }
  assert (Eb : p_lst (base s p x q) = p_lst (ps s q) /\ p_value (base s p x q) = p_value (ps s q)).
  { unfold base, upd. destruct (Nat.eqb_spec q p); [subst|]; auto. }
  split.
  { rewrite (cg_ps _ _ _ _ C q). destruct (_ && _); [|apply Eb].
    destruct (p_slo (base s p x q)) eqn:Es.
    - rewrite (proj1 (rewind_rest _ _ Es)). apply Eb.
    - unfold rewind. rewrite Es. apply Eb. }
  split.
  - cbn [filter is_val]. rewrite filter_app, Er, filter_tell_status_v, app_nil_r.
    unfold chg_evs. rewrite (cg_ps _ _ _ _ C q).
    destruct (involves (p_status (ps s p)) x); cbn [andb].
    + rewrite filter_flat_map.
      rewrite (flat_map_ext_in _ _ _ (fun a => if Nat.eqb a q then
          match p_slo (base s p x a) with
          | Some v => value_evs (base s p x a) a v | None => [] end else [])).
      2:{ intros a _. destruct (p_slo (base s p x a)).
          - change (value_evs (base s p x a) a v) with (tell_value a (p_lst (base s p x a)) v).
            apply filter_tell_value.
          - cbn. now destruct (Nat.eqb a q). }
      rewrite flat_map_pick by assumption.
      destruct (mem_spec q (stepl s')) as [Hi|Hi].
      * destruct (p_slo (base s p x q)) eqn:Es; [|exfalso; now apply (Hslo q Hi)].
        exists [v]. cbn. rewrite app_nil_r.
        rewrite (proj2 (rewind_rest _ _ Es)). split; [|reflexivity].
        unfold value_evs, tell_value. now rewrite (proj1 Eb).
      * exists []. cbn. split; [reflexivity|apply Eb].
    + exists []. cbn. split; [reflexivity|apply Eb].
  - cbn [filter is_stat]. rewrite filter_app, Er, filter_tell_status.
    assert (E0 : filter (is_stat q) (chg_evs s p x (stepl s')) = []).
    { unfold chg_evs. destruct (involves _ _); [|reflexivity].
      rewrite filter_flat_map. rewrite (flat_map_ext_in _ _ _ (fun _ => [])).
      - apply flat_map_nil.
      - intros a _. destruct (p_slo (base s p x a)); [|reflexivity].
        apply (filter_tell_value_s q a (p_lst (base s p x a)) v). }
    rewrite E0. cbn [app]. rewrite (chg_status _ _ _ _ q C), (Nat.eqb_sym q p).
    destruct (Nat.eqb_spec p q) as [->|Hq].
    + exists [(p_status (ps s q), x)]. cbn. rewrite Hl, app_nil_r. cbn. auto.
    + exists []. cbn. auto.
Qed.

(** What an operation on p carries along: effect on the other parameters and
    completeness of the announcements. *)
Definition track (p : nat) (s s' : state) : Prop := frame p s s' /\ announced s s'.
Lemma track_refl : forall p s, track p s s.
Proof. intros. split; [apply frame_refl|apply ann_refl]. Qed.
Lemma track_trans : forall p s1 s2 s3, track p s1 s2 -> track p s2 s3 -> track p s1 s3.
Proof. intros p s1 s2 s3 [A B] [C D]. split; eauto using frame_trans, ann_trans. Qed.

Section Sx.
Variable (p : nat) (s0 : state).
Variable (A : Type) (G : state * res A -> Prop).

Lemma sx_hnd : forall s k,
  G (k (ps s p) s) -> G (bind (hnd p) k s).
Proof. auto. Qed.

Lemma sx_put : forall s h f k,
  Inv s -> track p s0 s -> ps s p = h ->
  p_status (f h) = p_status h -> p_value (f h) = p_value h -> p_lst (f h) = p_lst h ->
  hok (f h) ->
  (forall s', Inv s' -> track p s0 s' -> ps s' p = f h -> G (k tt s')) ->
  G (bind (put p f) k s).
Proof.
  intros s h f k [L H] F <- E E2 E3 K HG. unfold bind, put, modify. apply HG.
  - constructor; [now apply lists_upd|].
    intros q. cbn. unfold upd. destruct (Nat.eqb_spec q p); auto.
  - apply (track_trans p s0 s _ F). split.
    + intros q Hq. cbn. rewrite upd_other by assumption. now left.
    + apply ann_quiet; [reflexivity|]. intros q. cbn. unfold upd.
      destruct (Nat.eqb_spec q p); [subst|]; auto.
  - cbn. now rewrite upd_same.
Qed.

Lemma sx_setv : forall s h v k,
  Inv s -> track p s0 s -> ps s p = h -> hok (with_value v h) ->
  (forall s', Inv s' -> track p s0 s' -> ps s' p = with_value v h -> G (k tt s')) ->
  G (bind (set_value_ p v) k s).
Proof.
  intros s h v k [L H] F <- K HG. unfold bind. rewrite set_value__eq. apply HG.
  - constructor; [apply lists_log; now apply lists_upd|].
    intros q. cbn. unfold upd. destruct (Nat.eqb_spec q p); auto.
  - apply (track_trans p s0 s _ F). split; [|apply ann_setv].
    intros q Hq. cbn. rewrite upd_other by assumption. now left.
  - cbn. now rewrite upd_same.
Qed.

(** set_status_ may be entered with p itself not yet consistent. *)
Lemma sx_setst : forall s h x k,
  lists_match_status s -> (forall q, q <> p -> hok (ps s q)) ->
  track p s0 s -> ps s p = h ->
  hok (with_status x h) -> x <> Undef ->
  (forall s', Inv s' -> track p s0 s' ->
     ps s' p = (if status_eqb x Stepping then rewind (with_status x h)
                else with_status x h) -> G (k tt s')) ->
  G (bind (set_status_ p x) k s).
Proof.
  intros s h x k L H F <- K Hx HG.
  assert (HB : forall q, hok (base s p x q)).
  { intros q. unfold base, upd. destruct (Nat.eqb_spec q p); auto. }
  destruct (set_status_eq s p x L Hx) as (s1 & E & C & T).
  { intros q Hq. now apply hok_ready. }
  { apply (ho_lst _ K). }
  { apply (ho_lst_nd _ K). }
  rewrite (bind_ok _ _ _ _ _ _ _ _ E).
  pose proof (chg_lists _ _ _ _ L C) as L1.
  assert (HS : forall q, mem q (stepl s1) = status_eqb (p_status (base s p x q)) Stepping).
  { intros q. rewrite base_status, <- (chg_status _ _ _ _ q C).
    destruct (mem_spec q (stepl s1)) as [Hi|Hi]; rewrite (lm_step _ L1) in Hi.
    - now rewrite Hi.
    - destruct (status_eqb_spec (p_status (ps s1 q)) Stepping); congruence. }
  apply HG.
  - constructor; [exact L1|]. intros q. rewrite (cg_ps _ _ _ _ C q).
    destruct (involves _ _ && mem q (stepl s1)) eqn:EM; [|apply HB].
    apply andb_true_iff in EM as [_ EM]. rewrite HS in EM.
    apply hok_rewind; [|apply HB]. now destruct (status_eqb_spec (p_status (base s p x q)) Stepping).
  - apply (track_trans p s0 s s1 F). split.
    2:{ apply (ann_chg s p x s1); auto.
        - apply L1.
        - intros q Hq. apply mem_In in Hq. rewrite HS in Hq.
          apply (ho_step _ (HB q)).
          now destruct (status_eqb_spec (p_status (base s p x q)) Stepping).
        - apply (ho_lst _ K). }
    intros q Hq. rewrite (cg_ps _ _ _ _ C q).
    assert (EB : base s p x q = ps s q).
    { unfold base. now apply upd_other. }
    destruct (involves _ _ && mem q (stepl s1)) eqn:EM; [|left; exact EB].
    apply andb_true_iff in EM as [_ EM]. rewrite HS, EB in EM. rewrite EB.
    right. split; [|reflexivity]. now destruct (status_eqb_spec (p_status (ps s q)) Stepping).
  - rewrite (cg_ps _ _ _ _ C p), HS, base_status, Nat.eqb_refl.
    unfold base. rewrite upd_same.
    destruct (status_eqb x Stepping) eqn:EX; cbn.
    + unfold involves. now rewrite EX, orb_true_r.
    + now rewrite andb_false_r.
Qed.

End Sx.

Lemma bind_ret : forall S B (m : S -> S * res B) s,
  bind m (fun x => ret x) s = m s.
Proof. intros. unfold bind, ret. destruct (m s) as [? []]; reflexivity. Qed.

(** The conclusion carried by every operation on p. *)
Definition good {A} (p : nat) (s0 : state) (r : state * res A) : Prop :=
  Inv (fst r) /\ track p s0 (fst r).

Lemma good_intro : forall A p s0 (s : state) (r : res A),
  Inv s -> track p s0 s -> good p s0 (s, r).
Proof. intros. split; assumption. Qed.

(** Handler changes that keep the handler consistent. *)
Ltac hok_tac :=
  match goal with
  | H : hok ?h |- hok _ =>
      let a := fresh in let b := fresh in let c := fresh in let d := fresh in
      let e := fresh in let f := fresh in
      destruct H as [a b c d e f]; constructor; cbn in *;
      [ intros; exfalso; congruence
      | intros; first [congruence | apply b; congruence]
      | let K := fresh in intros K; try discriminate K; try specialize (c K); repeat split; try tauto; try congruence
      | let K := fresh in intros K; try discriminate K; try specialize (d K); repeat split; try tauto; try congruence
      | assumption | assumption ]
  end.

Lemma hok_bnd : forall h b, hok h -> p_status h <> Undef -> hok (with_bnd b h).
Proof. intros; hok_tac. Qed.
Lemma hok_delta : forall h b, hok h -> p_status h <> Undef -> hok (with_delta b h).
Proof. intros; hok_tac. Qed.
Lemma hok_fac : forall h b, hok h -> p_status h <> Undef -> hok (with_fac b h).
Proof. intros; hok_tac. Qed.
Lemma hok_stype : forall h b, hok h -> p_status h <> Undef -> hok (with_stype b h).
Proof. intros; hok_tac. Qed.
Lemma hok_slo : forall h b, hok h -> p_status h <> Undef -> hok (with_slo b h).
Proof. intros; hok_tac. Qed.
Lemma hok_shi : forall h b, hok h -> p_status h <> Undef -> hok (with_shi b h).
Proof. intros; hok_tac. Qed.
Lemma hok_steps : forall h b, hok h -> p_status h <> Undef -> hok (with_steps b h).
Proof. intros; hok_tac. Qed.
Lemma hok_num : forall h b, hok h -> p_status h <> Undef -> hok (with_num b h).
Proof. intros; hok_tac. Qed.
Lemma hok_value : forall h b, hok h -> p_status h <> Undef -> hok (with_value b h).
Proof. intros; hok_tac. Qed.
Lemma hok_lst : forall h k, hok h -> p_status h <> Undef -> ~ In k (p_lst h) ->
  hok (with_lst (p_lst h ++ [k]) h).
Proof.
  intros h k [a b c d e f] H Hk. constructor; cbn; auto.
  - intros; congruence.
  - destruct e as [l ->]. now exists (l ++ [k]).
  - now apply NoDup_app_one.
Qed.
Lemma hok_fixed : forall h, hok h -> p_value h <> None -> hok (with_status Fixed h).
Proof. intros h [a b c d e f] H. constructor; cbn; auto; congruence. Qed.
Lemma hok_varying : forall h, hok h -> p_value h <> None ->
  p_bnd h <> None -> p_delta h <> None -> hok (with_status Varying h).
Proof. intros h [a b c d e f] H. constructor; cbn; auto; congruence. Qed.
Lemma hok_stepping : forall h, hok h -> p_value h <> None ->
  p_slo h <> None -> p_shi h <> None -> p_steps h <> None -> p_num h <> None ->
  p_stype h <> None -> hok (with_status Stepping h).
Proof. intros h [a b c d e f] H. constructor; cbn; auto; congruence. Qed.

Ltac hokd := repeat first [apply hok_value | apply hok_num | apply hok_steps
   | apply hok_shi | apply hok_slo | apply hok_stype | apply hok_fac
   | apply hok_delta | apply hok_bnd]; cbn; try assumption; try congruence.

Definition okdef (p : nat) (r : state * res unit) : Prop :=
  snd r = Ok tt -> defined (fst r) p.

Section Ops.
Variable p : nat.
Variable s0 : state.

Lemma range_good : forall s a b,
  Inv s -> track p s0 s -> defined s p -> good p s0 (range p a b s).
Proof.
  intros s a b I F D. unfold range. rewrite <- bind_ret.
  eapply sx_put with (s0 := s0); eauto; [hokd; apply I|].
  intros. now apply good_intro.
Qed.

Lemma set_value__good : forall s v,
  Inv s -> track p s0 s -> defined s p -> good p s0 (set_value_ p v s).
Proof.
  intros s v I F D. rewrite <- bind_ret.
  eapply sx_setv with (s0 := s0); eauto; [hokd; apply I|].
  intros. now apply good_intro.
Qed.

Lemma set_value_good : forall s v,
  Inv s -> track p s0 s -> good p s0 (set_value p v s).
Proof.
  intros s v I F. unfold set_value. apply sx_hnd.
  destruct (status_eqb_spec (p_status (ps s p)) Varying) as [E|];
    [|now apply good_intro].
  assert (D : defined s p) by (unfold defined; congruence).
  destruct (p_bnd (ps s p)) as [b|].
  - destruct (within v b); [now apply set_value__good|now apply good_intro].
  - now apply set_value__good.
Qed.

Lemma unbounded_set_good : forall s u,
  Inv s -> track p s0 s -> good p s0 (unbounded_set p u s).
Proof.
  intros s v I F. unfold unbounded_set. apply sx_hnd.
  destruct (status_eqb_spec (p_status (ps s p)) Varying) as [E|];
    [|now apply good_intro].
  assert (D : defined s p) by (unfold defined; congruence).
  destruct (p_bnd (ps s p)) as [[lo hi]|]; [|now apply good_intro].
  destruct (bad _ _); [destruct (ltb _ _ _)|]; now apply set_value__good.
Qed.

(** fix, also on a parameter that has no status yet *)
Lemma fix_good : forall s o,
  Inv s -> track p s0 s -> good p s0 (fix_ p o s).
Proof.
  intros s o I F. unfold fix_. apply sx_hnd.
  assert (Hset : forall v, good p s0 ((set_value_ p v;;; set_status_ p Fixed) s)).
  { intros v. unfold bind at 1. rewrite set_value__eq. rewrite <- bind_ret.
    pose proof (iv_h s I p) as Hp.
    eapply sx_setst with (s0 := s0) (h := with_value v (ps s p)).
    - apply lists_log, lists_upd; [reflexivity|apply I].
    - intros q Hq. cbn. rewrite upd_other by assumption. apply I.
    - apply (track_trans p s0 s _ F). split; [|apply ann_setv].
      intros q Hq. cbn. rewrite upd_other by assumption. now left.
    - cbn. now rewrite upd_same.
    - destruct Hp as [a b c d e f]. constructor; cbn; auto; congruence.
    - congruence.
    - intros s' I' F' _. now apply good_intro. }
  destruct o as [v|].
  - destruct (p_bnd (ps s p)) as [b|]; [|apply Hset].
    destruct (within v b); [apply Hset|now apply good_intro].
  - destruct (status_eqb_spec (p_status (ps s p)) Undef) as [E|E];
      [now apply good_intro|].
    change ((set_status_ p Fixed) s) with ((ret tt;;; set_status_ p Fixed) s).
    unfold bind at 1, ret. rewrite <- bind_ret.
    eapply sx_setst with (s0 := s0) (h := ps s p); auto; try apply I; try congruence.
    + intros q _; apply I.
    + apply hok_fixed; [apply I|]. now apply (ho_val _ (iv_h s I p)).
    + intros s' I' F' _. now apply good_intro.
Qed.

Lemma access_good : forall dflt s,
  Inv s -> track p s0 s -> good p s0 (access dflt p s).
Proof.
  intros dflt s I F. unfold access. apply sx_hnd.
  destruct (p_value (ps s p)) eqn:Ev; [now apply good_intro|].
  assert (E0 : ps s p = pst0).
  { destruct (status_eqb_spec (p_status (ps s p)) Undef) as [E|E].
    - now apply (ho_undef _ (iv_h s I p)).
    - exfalso. now apply (ho_val _ (iv_h s I p) E). }
  eapply sx_put with (s0 := s0) (h := ps s p); auto; try (now rewrite E0).
  - apply hok0.
  - intros s' I' F' _. now apply fix_good.
Qed.

Lemma access_ok_defined : forall dflt s s', Inv s ->
  access dflt p s = (s', Ok tt) -> defined s' p.
Proof.
  intros dflt s s' I E. unfold access, bind, hnd in E.
  destruct (p_value (ps s p)) eqn:Ev.
  - inversion E; subst. intros K. rewrite (ho_undef _ (iv_h s' I p) K) in Ev. discriminate.
  - unfold put, modify in E.
    assert (G : okdef p (fix_ p (dflt p) (upd_p p (fun _ => pst0) s))).
    { unfold fix_. apply sx_hnd.
      cbn [upd_p ps]. rewrite upd_same. cbn [pst0 p_bnd p_status status_eqb].
      destruct (dflt p); [|intros K; discriminate K].
      unfold bind at 1. rewrite set_value__eq. rewrite <- bind_ret.
      eapply sx_setst with (s0 := log_ev
         (value_evs (ps (upd_p p (fun _ : pst N => pst0) s) p) p v)
         (upd_p p (with_value v) (upd_p p (fun _ : pst N => pst0) s)))
         (h := with_value v pst0).
      - apply lists_log, lists_upd; [reflexivity|]. apply lists_upd; [|apply I].
        cbn. destruct (status_eqb_spec (p_status (ps s p)) Undef) as [K|K]; [congruence|].
        exfalso. now apply (ho_val _ (iv_h s I p) K).
      - intros q Hq. cbn. rewrite !upd_other by assumption. apply I.
      - apply track_refl.
      - cbn. rewrite !upd_same. reflexivity.
      - constructor; cbn; try congruence; [now exists []|repeat constructor; auto].
      - congruence.
      - intros s1 I1 _ P _. unfold defined. cbn. rewrite P. cbn. congruence. }
    unfold okdef in G. rewrite E in G. now apply G.
Qed.

Lemma check_end_cases : forall b o (s : state),
  check_end b o s = (s, Ok tt) \/ check_end b o s = (s, Err ParamRangeError).
Proof.
  intros [[lo hi]|] [v|] s; cbn; auto. destruct (_ || _); auto.
Qed.

Lemma linstep_good : forall s lo hi n,
  Inv s -> track p s0 s -> defined s p -> good p s0 (linstep p lo hi n s).
Proof.
  intros s lo hi n I F D. unfold linstep. apply sx_hnd.
  pose proof (iv_h s I p) as Hp. set (h := ps s p) in *.
  destruct (check_end_cases (p_bnd h) lo s) as [E|E];
    [rewrite (bind_ok _ _ _ _ _ _ _ _ E)|rewrite (bind_err _ _ _ _ _ _ _ _ E); now apply good_intro].
  destruct (check_end_cases (p_bnd h) hi s) as [E'|E'];
    [rewrite (bind_ok _ _ _ _ _ _ _ _ E')|rewrite (bind_err _ _ _ _ _ _ _ _ E'); now apply good_intro].
  assert (Dh : p_status h <> Undef) by exact D.
  eapply sx_put with (s0 := s0) (h := h); eauto; [hokd|]. intros s1 I1 F1 P1.
  assert (R : forall o b (s : state),
    (exists v, pick o b s = (s, Ok v)) \/ pick o b s = (s, Err AttributeError)).
  { intros [v|] [w|] t; cbn; [left|left|left|right]; try eexists; reflexivity. }
  destruct (R lo (bnd_lo h) s1) as [(l & El)|El];
    [rewrite (bind_ok _ _ _ _ _ _ _ _ El)|rewrite (bind_err _ _ _ _ _ _ _ _ El); now apply good_intro].
  eapply sx_put with (s0 := s0); eauto; [hokd|]. intros s2 I2 F2 P2.
  destruct (R hi (bnd_hi h) s2) as [(u & Eu)|Eu];
    [rewrite (bind_ok _ _ _ _ _ _ _ _ Eu)|rewrite (bind_err _ _ _ _ _ _ _ _ Eu); now apply good_intro].
  eapply sx_put with (s0 := s0); eauto; [hokd|]. intros s3 I3 F3 P3.
  eapply sx_put with (s0 := s0); eauto; [hokd|]. intros s4 I4 F4 P4.
  destruct lo as [a|]; [|now apply good_intro].
  destruct hi as [b|]; [|now apply good_intro].
  destruct (Z.eqb n 1); [now apply good_intro|].
  eapply sx_put with (s0 := s0); eauto; [hokd|]. intros s5 I5 F5 P5.
  eapply sx_put with (s0 := s0); eauto; [hokd|]. intros s6 I6 F6 P6.
  eapply sx_setv with (s0 := s0); eauto; [hokd|]. intros s7 I7 F7 P7.
  rewrite <- bind_ret. eapply sx_setst with (s0 := s0); eauto; try apply I7; try congruence.
  - intros q _; apply I7.
  - apply hok_stepping; cbn; try congruence. hokd.
  - intros s8 I8 F8 _. now apply good_intro.
Qed.

Lemma logstep_good : forall s lo hi n,
  Inv s -> track p s0 s -> defined s p -> good p s0 (logstep p lo hi n s).
Proof.
  intros s lo hi n I F D. unfold logstep. apply sx_hnd.
  pose proof (iv_h s I p) as Hp. set (h := ps s p) in *.
  destruct (check_end_cases (p_bnd h) lo s) as [E|E];
    [rewrite (bind_ok _ _ _ _ _ _ _ _ E)|rewrite (bind_err _ _ _ _ _ _ _ _ E); now apply good_intro].
  destruct (check_end_cases (p_bnd h) hi s) as [E'|E'];
    [rewrite (bind_ok _ _ _ _ _ _ _ _ E')|rewrite (bind_err _ _ _ _ _ _ _ _ E'); now apply good_intro].
  assert (Dh : p_status h <> Undef) by exact D.
  destruct lo as [a|]; [|now apply good_intro].
  destruct hi as [b|]; [|now apply good_intro].
  destruct (leb _ _ _); [now apply good_intro|].
  eapply sx_put with (s0 := s0) (h := h); eauto; [hokd|]. intros s1 I1 F1 P1.
  assert (R : forall (c : bool) (v : N) b (s : state),
    (exists w, (if c then ret v else attr AttributeError b) s = (s, Ok w))
    \/ (if c then ret v else attr AttributeError b) s = (s, Err AttributeError)).
  { intros [] v [w|] t; cbn; [left|left|left|right]; try eexists; reflexivity. }
  destruct (R (truthy a) a (bnd_lo h) s1) as [(l & El)|El];
    [rewrite (bind_ok _ _ _ _ _ _ _ _ El)|rewrite (bind_err _ _ _ _ _ _ _ _ El); now apply good_intro].
  eapply sx_put with (s0 := s0); eauto; [hokd|]. intros s2 I2 F2 P2.
  destruct (R (truthy b) b (bnd_hi h) s2) as [(u & Eu)|Eu];
    [rewrite (bind_ok _ _ _ _ _ _ _ _ Eu)|rewrite (bind_err _ _ _ _ _ _ _ _ Eu); now apply good_intro].
  eapply sx_put with (s0 := s0); eauto; [hokd|]. intros s3 I3 F3 P3.
  eapply sx_put with (s0 := s0); eauto; [hokd|]. intros s4 I4 F4 P4.
  destruct (eqb _ _ _); [now apply good_intro|].
  eapply sx_put with (s0 := s0); eauto; [hokd|]. intros s5 I5 F5 P5.
  eapply sx_put with (s0 := s0); eauto; [hokd|]. intros s6 I6 F6 P6.
  eapply sx_setv with (s0 := s0); eauto; [hokd|]. intros s7 I7 F7 P7.
  rewrite <- bind_ret. eapply sx_setst with (s0 := s0); eauto; try apply I7; try congruence.
  - intros q _; apply I7.
  - apply hok_stepping; cbn; try congruence. hokd.
  - intros s8 I8 F8 _. now apply good_intro.
Qed.

Lemma sx_attr : forall A B (G : state * res B -> Prop) e (o : option A) k (s : state),
  (forall a, o = Some a -> G (k a s)) -> (o = None -> G (s, Err e)) ->
  G (bind (attr e o) k s).
Proof. intros A B G e [a|] k s H1 H2; cbn; auto. Qed.

Lemma p_next_good : forall s,
  Inv s -> track p s0 s -> good p s0 (p_next_step p s).
Proof.
  intros s I F. unfold p_next_step. apply sx_hnd.
  destruct (status_eqb_spec (p_status (ps s p)) Stepping) as [E|];
    [|now apply good_intro].
  pose proof (iv_h s I p) as Hp. set (h := ps s p) in *.
  assert (Dh : p_status h <> Undef) by congruence.
  apply sx_attr; [|intros; now apply good_intro]. intros k Ek.
  apply sx_attr; [|intros; now apply good_intro]. intros n En.
  destruct (Z.eqb k (n - 1)); [now apply good_intro|].
  eapply sx_put with (s0 := s0) (h := h); eauto; [hokd|]. intros s1 I1 F1 P1.
  assert (D1 : defined s1 p) by (unfold defined; rewrite P1; exact Dh).
  apply sx_attr; [|intros; now apply good_intro]. intros t Et.
  destruct (Z.eqb (k + 1) (n - 1)).
  - apply sx_attr; [|intros; now apply good_intro]. intros u Eu. now apply set_value__good.
  - apply sx_attr; [|intros; now apply good_intro]. intros v Ev.
    destruct t; (apply sx_attr; [|intros; now apply good_intro]); intros d Ed;
      now apply set_value__good.
Qed.

Lemma p_prev_good : forall s,
  Inv s -> track p s0 s -> good p s0 (p_prev_step p s).
Proof.
  intros s I F. unfold p_prev_step. apply sx_hnd.
  destruct (status_eqb_spec (p_status (ps s p)) Stepping) as [E|];
    [|now apply good_intro].
  pose proof (iv_h s I p) as Hp. set (h := ps s p) in *.
  assert (Dh : p_status h <> Undef) by congruence.
  apply sx_attr; [|intros; now apply good_intro]. intros k Ek.
  destruct (Z.eqb k 0); [now apply good_intro|].
  eapply sx_put with (s0 := s0) (h := h); eauto; [hokd|]. intros s1 I1 F1 P1.
  assert (D1 : defined s1 p) by (unfold defined; rewrite P1; exact Dh).
  apply sx_attr; [|intros; now apply good_intro]. intros t Et.
  destruct (Z.eqb (k - 1) 0).
  - apply sx_attr; [|intros; now apply good_intro]. intros u Eu. now apply set_value__good.
  - apply sx_attr; [|intros; now apply good_intro]. intros v Ev.
    destruct t; (apply sx_attr; [|intros; now apply good_intro]); intros d Ed;
      now apply set_value__good.
Qed.

Lemma first_good : forall s,
  Inv s -> track p s0 s -> good p s0 (first_step p s).
Proof.
  intros s I F. unfold first_step. apply sx_hnd.
  destruct (status_eqb_spec (p_status (ps s p)) Stepping) as [E|];
    [|now apply good_intro].
  pose proof (iv_h s I p) as Hp. set (h := ps s p) in *.
  assert (Dh : p_status h <> Undef) by congruence.
  eapply sx_put with (s0 := s0) (h := h); eauto; [hokd|]. intros s1 I1 F1 P1.
  assert (D1 : defined s1 p) by (unfold defined; rewrite P1; exact Dh).
  apply sx_attr; [|intros; now apply good_intro]. intros t Et.
  now apply set_value__good.
Qed.

Lemma last_good : forall s,
  Inv s -> track p s0 s -> good p s0 (last_step p s).
Proof.
  intros s I F. unfold last_step. apply sx_hnd.
  destruct (status_eqb_spec (p_status (ps s p)) Stepping) as [E|];
    [|now apply good_intro].
  pose proof (iv_h s I p) as Hp. set (h := ps s p) in *.
  assert (Dh : p_status h <> Undef) by congruence.
  apply sx_attr; [|intros; now apply good_intro]. intros n En.
  eapply sx_put with (s0 := s0) (h := h); eauto; [hokd|]. intros s1 I1 F1 P1.
  assert (D1 : defined s1 p) by (unfold defined; rewrite P1; exact Dh).
  apply sx_attr; [|intros; now apply good_intro]. intros t Et.
  now apply set_value__good.
Qed.

Lemma vary_good : forall s start delta rng,
  Inv s -> track p s0 s -> defined s p -> good p s0 (vary p start delta rng s).
Proof.
  intros s start delta rng I F D. unfold vary. apply sx_hnd.
  pose proof (iv_h s I p) as Hp. set (h := ps s p) in *.
  assert (Dh : p_status h <> Undef) by exact D.
  assert (Hv : p_value h <> None) by now apply (ho_val _ Hp).
  assert (Tail : forall s1 h1, Inv s1 -> track p s0 s1 -> ps s1 p = h1 ->
     p_value h1 <> None -> p_bnd h1 <> None -> p_delta h1 <> None ->
     good p s0 ((set_status_ p Varying;;;
       match start with
       | Some v => set_value p v
       | None => match p_value h with Some _ => ret tt | None => raise AttributeError end
       end) s1)).
  { intros s1 h1 I1 F1 P1 A1 A2 A3. eapply sx_setst with (s0 := s0); eauto; try apply I1; try congruence.
    - intros q _; apply I1.
    - apply hok_varying; auto. rewrite <- P1. apply I1.
    - intros s2 I2 F2 P2. destruct start as [v|].
      + now apply set_value_good.
      + destruct (p_value h); now apply good_intro. }
  assert (Dl : forall s1 h1, Inv s1 -> track p s0 s1 -> ps s1 p = h1 ->
     p_status h1 <> Undef -> p_value h1 <> None -> p_bnd h1 <> None ->
     p_delta h1 = p_delta h ->
     good p s0 (((match delta with
        | Some d => put p (with_delta d)
        | None => match p_delta h with Some _ => ret tt | None => raise ValueError end
        end);;; set_status_ p Varying;;;
       match start with
       | Some v => set_value p v
       | None => match p_value h with Some _ => ret tt | None => raise AttributeError end
       end) s1)).
  { intros s1 h1 I1 F1 P1 Ds A1 A2 A3. destruct delta as [d|].
    - eapply sx_put with (s0 := s0); eauto.
      + hokd. rewrite <- P1. apply I1.
      + intros s2 I2 F2 P2. eapply Tail; eauto; cbn; congruence.
    - destruct (p_delta h) eqn:Ed; [|now apply good_intro].
      eapply Tail with (s1 := s1); eauto; cbn; congruence. }
  destruct rng as [[a b]|].
  - unfold range. eapply sx_put with (s0 := s0) (h := h); eauto; [hokd|].
    intros s1 I1 F1 P1. eapply Dl; eauto; cbn; congruence.
  - destruct (p_bnd h) eqn:Eb; [|now apply good_intro].
    eapply Dl with (s1 := s) (h1 := h); eauto; cbn; congruence.
Qed.

Lemma add_listener_good : forall s k,
  Inv s -> defined s p ->
  Inv (fst (add_listener p k s)) /\ frame p s (fst (add_listener p k s)).
Proof.
  intros s k I D. unfold add_listener, bind, hnd.
  change (existsb (Nat.eqb k) (p_lst (ps s p))) with (mem k (p_lst (ps s p))).
  destruct (mem_spec k (p_lst (ps s p))) as [|Hk]; [split; [exact I|apply frame_refl]|].
  unfold put, modify; cbn. destruct I as [L H]. split.
  - constructor; [now apply lists_upd|].
    intros q. cbn. unfold upd. destruct (Nat.eqb_spec q p); auto.
    apply hok_lst; auto.
  - intros q Hq. cbn. rewrite upd_other by assumption. now left.
Qed.

End Ops.

(** After a method call through attribute access. *)
Lemma via_access_good : forall p dflt (m : M N unit) s,
  Inv s ->
  (forall s1, Inv s1 -> track p s s1 -> defined s1 p -> good p s (m s1)) ->
  good p s ((access dflt p;;; m) s).
Proof.
  intros p dflt m s I H.
  destruct (access_good p s dflt s I (track_refl p s)) as [I1 F1].
  pose proof (access_ok_defined p dflt s) as HD.
  unfold bind. destruct (access dflt p s) as [s1 [[]|e]] eqn:E; cbn in *.
  - apply H; auto.
  - now apply good_intro.
Qed.

Lemma reset_good : forall s, Inv s ->
  exists s', reset_steps s = (s', Ok tt) /\ Inv s' /\ reset_rel s s'.
Proof.
  intros s I. destruct (reset_steps_eq s) as (s' & E & R).
  - apply I.
  - intros p Hp. apply hok_ready; [apply I|]. now apply I.
  - exists s'. split; [exact E|]. split; [|exact R]. destruct I as [L H].
    assert (K : forall q, p_status (ps s' q) = p_status (ps s q)).
    { intros q. rewrite (rr_ps _ _ R). destruct (mem q (stepl s)); auto using rewind_status. }
    constructor.
    + constructor; rewrite ?(rr_f _ _ R), ?(rr_v _ _ R), ?(rr_s _ _ R);
        try (intros q; rewrite K); try apply L.
      rewrite (rr_i _ _ R). destruct (mem_spec q (stepl s)) as [Hi|Hi].
      * apply L in Hi. split; congruence.
      * apply L.
    + intros q. rewrite (rr_ps _ _ R). destruct (mem_spec q (stepl s)) as [Hi|Hi]; auto.
      apply hok_rewind; auto. now apply L.
Qed.

Lemma for_each_Inv : forall A (l : list A) (f : A -> M N unit) s,
  Inv s -> (forall a s1, Inv s1 -> Inv (fst (f a s1))) ->
  Inv (fst (for_each l f s)).
Proof.
  induction l as [|a l IH]; intros f s I H; [exact I|]. cbn [for_each].
  unfold bind. pose proof (H a s I) as Ha. destruct (f a s) as [s1 [u|e]]; cbn in *; auto.
Qed.

Lemma set_info_Inv : forall p d s, Inv s -> In p (stepl s) -> Inv (set_info p (Some d) s).
Proof.
  intros p d s [L H] Hp. constructor; [|exact H]. constructor; try apply L.
  intros q. cbn. unfold upd. destruct (Nat.eqb_spec q p) as [->|]; [|apply L].
  apply L in Hp. split; congruence.
Qed.

Lemma p_next_lists : forall p (s s' : state) r, p_next_step p s = (s', r) ->
  fixedl s' = fixedl s /\ varyl s' = varyl s /\ stepl s' = stepl s /\ info s' = info s.
Proof.
  intros p s s' r. unfold p_next_step, bind, hnd, attr, put, modify, raise.
  destruct (ps s p) as [st va bn de fa ty sl sh sn nu ls]; cbn.
  destruct st; cbn; try (intros E; inversion E; subst; auto; fail).
  destruct nu; cbn; try (intros E; inversion E; subst; auto; fail).
  destruct sn; cbn; try (intros E; inversion E; subst; auto; fail).
  destruct (Z.eqb _ _); cbn; try (intros E; inversion E; subst; auto; fail).
  destruct ty as [ty|]; cbn; try (intros E; inversion E; subst; auto; fail).
  destruct (Z.eqb _ _); cbn.
  - destruct sh; intros E; inversion E; subst; auto.
  - destruct va; cbn; try (intros E; inversion E; subst; auto; fail).
    destruct ty; cbn; [destruct de|destruct fa]; intros E; inversion E; subst; auto.
Qed.

Lemma p_prev_lists : forall p (s s' : state) r, p_prev_step p s = (s', r) ->
  fixedl s' = fixedl s /\ varyl s' = varyl s /\ stepl s' = stepl s /\ info s' = info s.
Proof.
  intros p s s' r. unfold p_prev_step, bind, hnd, attr, put, modify, raise.
  destruct (ps s p) as [st va bn de fa ty sl sh sn nu ls]; cbn.
  destruct st; cbn; try (intros E; inversion E; subst; auto; fail).
  destruct nu; cbn; try (intros E; inversion E; subst; auto; fail).
  destruct (Z.eqb _ _); cbn; try (intros E; inversion E; subst; auto; fail).
  destruct ty as [ty|]; cbn; try (intros E; inversion E; subst; auto; fail).
  destruct (Z.eqb _ _); cbn.
  - destruct sl; intros E; inversion E; subst; auto.
  - destruct va; cbn; try (intros E; inversion E; subst; auto; fail).
    destruct ty; cbn; [destruct de|destruct fa]; intros E; inversion E; subst; auto.
Qed.

Lemma grid_loop_Inv : forall last l (s : state), Inv s -> (forall p, In p l -> In p (stepl s)) ->
  Inv (fst (grid_step_loop last l s)).
Proof.
  induction l as [|p l IH]; intros s I H; [exact I|]. cbn [grid_step_loop].
  destruct (info s p) as [d|]; [|exact I].
  set (m := match d with Nextd => p_next_step p | Prevd => p_prev_step p end).
  assert (K : Inv (fst (m s)) /\ stepl (fst (m s)) = stepl s).
  { unfold m. destruct d.
    - split; [apply (p_next_good p s s I (track_refl _ _))|].
      destruct (p_next_step p s) eqn:E. apply p_next_lists in E. tauto.
    - split; [apply (p_prev_good p s s I (track_refl _ _))|].
      destruct (p_prev_step p s) eqn:E. apply p_prev_lists in E. tauto. }
  destruct (m s) as [s1 [u|e]]; cbn in K; destruct K as [I1 S1]; [exact I1|].
  destruct e; try exact I1.
  destruct (Nat.eqb p last).
  - destruct (reset_good s1 I1) as (s2 & E2 & I2 & _). unfold bind. rewrite E2. exact I2.
  - unfold bind, modify. apply IH.
    + apply set_info_Inv; auto. rewrite S1. apply H. now left.
    + intros q Hq. cbn. rewrite S1. apply H. now right.
Qed.

Theorem run_op_Inv : forall dflt o s, Inv s -> Inv (fst (run_op dflt o s)).
Proof.
  intros dflt o s I. destruct o; cbn [run_op].
  - apply (access_good p s dflt s I (track_refl _ _)).
  - apply (fix_good p s s o I (track_refl _ _)).
  - apply (via_access_good p). exact I. intros. now apply set_value_good.
  - apply (via_access_good p). exact I. intros. now apply fix_good.
  - apply (via_access_good p). exact I. intros. now apply range_good.
  - apply (via_access_good p). exact I. intros. now apply linstep_good.
  - apply (via_access_good p). exact I. intros. now apply logstep_good.
  - apply (via_access_good p). exact I. intros. now apply p_next_good.
  - apply (via_access_good p). exact I. intros. now apply p_prev_good.
  - apply (via_access_good p). exact I. intros. now apply first_good.
  - apply (via_access_good p). exact I. intros. now apply last_good.
  - apply (via_access_good p). exact I. intros. now apply vary_good.
  - apply (via_access_good p). exact I. intros. now apply unbounded_set_good.
  - destruct (access_good p s dflt s I (track_refl _ _)) as [I1 _].
    pose proof (access_ok_defined p dflt s) as HD.
    unfold bind. destruct (access dflt p s) as [s1 [[]|e]]; cbn in *; [|exact I1].
    apply add_listener_good; auto.
  - apply (via_access_good p). exact I. intros. now apply good_intro.
  - destruct (reset_good s I) as (s' & E & I' & _). now rewrite E.
  - unfold grid_step, bind, get. destruct (stepl s) as [|q l] eqn:E; [exact I|].
    apply grid_loop_Inv; [exact I|]. now rewrite E.
  - unfold set_varying, bind, get. destruct (negb _); [exact I|].
    apply for_each_Inv; [exact I|]. intros [q v] s1 I1.
    apply (set_value_good q s1 s1 v I1 (track_refl _ _)).
  - unfold score_assign, bind, get.
    apply for_each_Inv; [exact I|]. intros [q v] s1 I1. cbn. destruct unb.
    + apply (unbounded_set_good q s1 s1 v I1 (track_refl _ _)).
    + apply (set_value_good q s1 s1 v I1 (track_refl _ _)).
  - unfold set_params. apply for_each_Inv; [exact I|]. intros q s1 I1.
    apply (via_access_good q). exact I1. intros s2 I2 F2 D2. apply sx_hnd.
    destruct (p_status (ps s2 q)); try now apply good_intro.
    + destruct (pv q); [|now apply good_intro]. now apply fix_good.
    + destruct (pv q); [|now apply good_intro]. now apply vary_good.
  - unfold score_eval. apply for_each_Inv; [exact I|]. intros k s1 [L H].
    constructor; [now apply lists_log|exact H].
Qed.

Theorem run_Inv : forall dflt l s, Inv s -> Inv (run dflt l s).
Proof.
  intros dflt l. unfold run. induction l as [|o l IH]; intros s I; [exact I|].
  cbn. apply IH. now apply run_op_Inv.
Qed.

Lemma reachable_Inv : forall dflt s, reachable dflt s -> Inv s.
Proof. intros dflt s [l ->]. apply run_Inv, Inv0. Qed.

End Gen.

Ltac hokd := repeat first [apply hok_value | apply hok_num | apply hok_steps
   | apply hok_shi | apply hok_slo | apply hok_stype | apply hok_fac
   | apply hok_delta | apply hok_bnd]; cbn; try assumption; try congruence.
