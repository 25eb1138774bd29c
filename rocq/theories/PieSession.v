(** Whole sessions, and exact announcements of single operations. *)

From Coq Require Import ZArith List Bool Arith Lia.
From Verif Require Import Exn PieModel PieSpec PieLemmas PieLemmas2 PieGridModel PieGridSpec
  PieGridLemmas PieGridLemmas2 PieGridLemmas3 PieKeep PieExact.
Import ListNotations.
Open Scope exn_scope.

Section Gen.
Context {N : num}.
Notation state := (st N).

Definition kInv {A} (m : M N A) : Prop := forall s, Inv s -> Inv (fst (m s)).
Lemma kInv_bind : forall A B (m : M N A) (k : A -> M N B),
  kInv m -> (forall a, kInv (k a)) -> kInv (bind m k).
Proof.
  intros A B m k H K s I. unfold bind. specialize (H s I).
  destruct (m s) as [s1 [a|e]]; [now apply K|exact H].
Qed.
Lemma kInv_quiet : forall A (m : M N A), kquiet m -> kInv m.
Proof. intros A m H s I. apply (H s I). Qed.
Lemma kInv_same : forall A (m : M N A), (forall s, fst (m s) = s) -> kInv m.
Proof. intros A m H s I. now rewrite H. Qed.
Lemma kInv_grid : kInv (@grid_step N).
Proof. intros s I. apply (run_op_Inv (fun _ => None) OGridStep s I). Qed.
Lemma kInv_write : forall g ind v, kInv (@write N g ind v).
Proof. intros g ind v s I. unfold write. destruct (norm_index _ _); exact I. Qed.

Section Oracles.
Variable preds : list nat.
Variable scoref : (nat -> option N) -> N.
Variable minimiser : state -> list N -> list N -> list (list N) * (list N * N).
Variable sns : sense.
Variable unb : bool.

Lemma kInv_loop : forall fuel b vg r,
  kInv (grid_loop preds scoref minimiser sns unb fuel b vg r).
Proof.
  induction fuel as [|fuel IH]; intros b vg r; [now intros s I|]. cbn [grid_loop].
  apply kInv_bind; [now intros s I|]. intros s0.
  apply kInv_bind; [apply kInv_quiet, kquiet_attr|]. intros ind.
  apply kInv_bind.
  - destruct b.
    + apply kInv_bind; [apply kInv_quiet, kquiet_optimize|]. intros [params ext].
      apply kInv_bind; [apply kInv_write|]. intros g s I. exact I.
    + apply kInv_bind; [apply kInv_quiet, kquiet_score|]. intros v.
      apply kInv_bind; [apply kInv_write|]. intros g s I. exact I.
  - intros r' s I. pose proof (kInv_grid s I) as I2.
    destruct (grid_step s) as [s2 [u|e]]; [now apply IH|]. now destruct e.
Qed.
Lemma kInv_new_grid : kInv (@new_grid N).
Proof.
  unfold new_grid. apply kInv_bind; [now intros s I|]. intros s.
  apply kInv_bind; [apply kInv_quiet, kquiet_attr|]. intros _.
  apply kInv_bind; [apply kInv_quiet, kquiet_attr|]. intros _.
  apply kInv_bind; [apply kInv_quiet, kquiet_attr|]. intros sh.
  destruct (existsb _ _); now intros s' I.
Qed.
Lemma kInv_do_grid : forall fuel vg, kInv (do_grid preds scoref minimiser sns unb fuel vg).
Proof.
  intros fuel vg. unfold do_grid. apply kInv_bind; [apply kInv_new_grid|]. intros g.
  apply kInv_bind; [now intros s I|]. intros s. apply kInv_bind; [apply kInv_loop|].
  intros r. destruct (vg && _); now intros s' I.
Qed.
Lemma kInv_fit : forall fuel vg, kInv (fit preds scoref minimiser sns unb fuel vg).
Proof.
  intros fuel vg. unfold fit. apply kInv_bind; [now intros s I|]. intros s.
  destruct (varyl s), (stepl s).
  - apply kInv_bind; [apply kInv_quiet, kquiet_score|]. now intros v s' I.
  - apply kInv_bind; [apply kInv_do_grid|]. now intros v s' I.
  - apply kInv_bind; [apply kInv_quiet, kquiet_optimize|]. now intros v s' I.
  - apply kInv_bind; [apply kInv_do_grid|]. now intros v s' I.
Qed.
End Oracles.

Lemma session_Inv : forall dflt (s : state), session dflt s -> Inv s.
Proof.
  induction 1.
  - apply Inv0.
  - now apply run_op_Inv.
  - now apply kInv_fit.
  - now apply kInv_do_grid.
  - now apply kInv_quiet; [apply kquiet_optimize|].
Qed.

(** ** Exactly one round of announcements *)
Definition one_round (s : state) (p : nat) (r : state * res unit) : Prop :=
  snd r = Ok tt -> exists v, p_value (ps (fst r) p) = Some v
    /\ trace (fst r) = trace s ++ tell_value p (p_lst (ps s p)) v.

Lemma round_setv : forall p v (s s1 : state), trace s1 = trace s ->
  p_lst (ps s1 p) = p_lst (ps s p) -> one_round s p (set_value_ p v s1).
Proof.
  intros p v s s1 T L _. rewrite set_value__eq. exists v. cbn. rewrite upd_same. split; [reflexivity|].
  rewrite T. unfold value_evs, tell_value. now rewrite L.
Qed.
Lemma round_err : forall p (s s1 : state) e, one_round s p (s1, Err e).
Proof. intros p s s1 e H. discriminate. Qed.
Lemma round_attr : forall A p (s s1 : state) e (o : option A) k,
  (forall a, o = Some a -> one_round s p (k a s1)) -> one_round s p (bind (attr e o) k s1).
Proof. intros A p s s1 e [a|] k H; [now apply H|apply round_err]. Qed.

Lemma revalue_round : forall dflt p o (s : state), Inv s -> defined s p -> revalues p o ->
  one_round s p (run_op dflt o s).
Proof.
  intros dflt p o s I D R. destruct o; cbn in R; try contradiction; subst p0; cbn [run_op];
    rewrite (bind_ok _ _ _ _ _ _ _ _ (access_defined dflt p s I D)).
  - unfold set_value, bind, hnd. destruct (status_eqb _ _); [|apply round_err].
    destruct (p_bnd (ps s p)) as [b|]; [destruct (within v b); [|apply round_err]|]; now apply round_setv.
  - unfold p_next_step, bind at 1, hnd. destruct (status_eqb _ _); [|apply round_err].
    apply round_attr. intros k _. apply round_attr. intros n _.
    destruct (Z.eqb _ _); [apply round_err|]. unfold bind at 1, put, modify.
    apply round_attr. intros t _. destruct (Z.eqb _ _).
    + apply round_attr. intros u _. apply round_setv; [reflexivity|]. cbn. now rewrite upd_same.
    + apply round_attr. intros v _. destruct t; apply round_attr; intros d _;
        (apply round_setv; [reflexivity|]; cbn; now rewrite upd_same).
  - unfold p_prev_step, bind at 1, hnd. destruct (status_eqb _ _); [|apply round_err].
    apply round_attr. intros k _.
    destruct (Z.eqb _ _); [apply round_err|]. unfold bind at 1, put, modify.
    apply round_attr. intros t _. destruct (Z.eqb _ _).
    + apply round_attr. intros u _. apply round_setv; [reflexivity|]. cbn. now rewrite upd_same.
    + apply round_attr. intros v _. destruct t; apply round_attr; intros d _;
        (apply round_setv; [reflexivity|]; cbn; now rewrite upd_same).
  - unfold first_step, bind at 1, hnd. destruct (status_eqb _ _); [|apply round_err].
    unfold bind at 1, put, modify. apply round_attr. intros u _.
    apply round_setv; [reflexivity|]. cbn. now rewrite upd_same.
  - unfold last_step, bind at 1, hnd. destruct (status_eqb _ _); [|apply round_err].
    apply round_attr. intros n _. unfold bind at 1, put, modify. apply round_attr. intros u _.
    apply round_setv; [reflexivity|]. cbn. now rewrite upd_same.
  - unfold unbounded_set, bind, hnd. destruct (status_eqb _ _); [|apply round_err].
    destruct (p_bnd (ps s p)) as [[lo hi]|]; [|apply round_err].
    destruct (bad _ _); [destruct (ltb _ _ _)|]; now apply round_setv.
Qed.

(** fix of a parameter that was not stepping: one round for the value, one for
    the status *)
Lemma fix_round : forall p v (s s' : state), Inv s -> defined s p ->
  p_status (ps s p) <> Stepping -> fix_ p (Some v) s = (s', Ok tt) ->
  trace s' = trace s ++ tell_value p (p_lst (ps s p)) v
     ++ tell_status p (p_lst (ps s p)) (p_status (ps s p), Fixed).
Proof.
  intros p v s s' I D Hs E. pose proof (iv_h s I p) as Hp.
  assert (K : (set_value_ p v;;; set_status_ p Fixed) s = (s', Ok tt)).
  { unfold fix_, bind at 1, hnd in E. destruct (p_bnd (ps s p)) as [b|].
    - destruct (within v b); [exact E|discriminate].
    - exact E. }
  unfold bind in K. rewrite set_value__eq in K.
  match type of K with set_status_ _ _ ?x = _ => set (s1 := x) in * end.
  assert (Es : p_status (ps s1 p) = p_status (ps s p)) by (unfold s1; cbn; now rewrite upd_same).
  assert (El : p_lst (ps s1 p) = p_lst (ps s p)) by (unfold s1; cbn; now rewrite upd_same).
  destruct (set_status_eq s1 p Fixed) as (s2 & E2 & C & T); try discriminate.
  - unfold s1. apply lists_log, lists_upd; [reflexivity|apply I].
  - intros q Hq. unfold base, upd in Hq |- *. destruct (Nat.eqb_spec q p) as [Hn|Hn]; [discriminate|].
    unfold s1 in Hq |- *. cbn in Hq |- *. rewrite upd_other in * by assumption.
    apply hok_ready; auto. apply I.
  - rewrite El. apply (ho_lst _ Hp).
  - rewrite El. apply (ho_lst_nd _ Hp).
  - rewrite E2 in K. injection K as <-. rewrite T, Es, El.
    destruct (ho_lst _ Hp) as [l Hl]. unfold chg_evs. rewrite Es.
    assert (Hi : involves (p_status (ps s p)) Fixed = false).
    { destruct (p_status (ps s p)); auto. now elim Hs. }
    rewrite Hi, Hl. unfold s1. cbn. rewrite <- app_assoc. unfold value_evs, tell_value.
    rewrite Hl. reflexivity.
Qed.
End Gen.
