(** do_grid fills every cell with the score found at that cell. *)

From Coq Require Import ZArith List Bool Arith Lia.
From Verif Require Import Exn PieModel PieSpec PieLemmas PieLemmas2 PieGridModel PieGridSpec
  PieGridLemmas PieGridLemmas2.
Import ListNotations.
Open Scope exn_scope.

Section Gen.
Context {N : num}.
Notation state := (st N).

(** ** Computations that only touch the values of varying parameters *)
Record quiet (s s' : state) : Prop := {
  qt_inv : Inv s';
  qt_f : fixedl s' = fixedl s;
  qt_v : varyl s' = varyl s;
  qt_s : stepl s' = stepl s;
  qt_i : info s' = info s;
  qt_st : forall q, p_status (ps s' q) = p_status (ps s q);
  qt_ps : forall q, p_status (ps s q) <> Varying -> ps s' q = ps s q
}.
Lemma quiet_refl : forall s : state, Inv s -> quiet s s.
Proof. now constructor. Qed.
Lemma quiet_trans : forall s s1 s2 : state, quiet s s1 -> quiet s1 s2 -> quiet s s2.
Proof.
  intros s s1 s2 A B. constructor.
  - apply B.
  - rewrite (qt_f _ _ B). apply A.
  - rewrite (qt_v _ _ B). apply A.
  - rewrite (qt_s _ _ B). apply A.
  - rewrite (qt_i _ _ B). apply A.
  - intros q. rewrite (qt_st _ _ B). apply A.
  - intros q Hq. rewrite (qt_ps _ _ B); [now apply A|]. now rewrite (qt_st _ _ A).
Qed.

Lemma quiet_set_value_ : forall p v (s : state), Inv s -> p_status (ps s p) = Varying ->
  quiet s (fst (set_value_ p v s)).
Proof.
  intros p v s I E.
  assert (Hd : defined s p) by (unfold defined; congruence).
  destruct (set_value__good p s s v I (track_refl p s) Hd) as [I' _].
  rewrite set_value__eq in *. cbn [fst] in *. constructor; auto.
  - intros q. cbn. unfold upd. destruct (Nat.eqb_spec q p) as [->|]; reflexivity.
  - intros q Hq. cbn. apply upd_other. congruence.
Qed.
Lemma quiet_set_value : forall p v (s : state), Inv s -> quiet s (fst (set_value p v s)).
Proof.
  intros p v s I. unfold set_value, bind, hnd.
  destruct (status_eqb_spec (p_status (ps s p)) Varying) as [E|];
    [|now apply quiet_refl].
  destruct (p_bnd (ps s p)) as [b|]; [|now apply quiet_set_value_].
  destruct (within v b); [now apply quiet_set_value_|now apply quiet_refl].
Qed.
Lemma quiet_unbounded_set : forall p v (s : state), Inv s -> quiet s (fst (unbounded_set p v s)).
Proof.
  intros p v s I. unfold unbounded_set, bind, hnd.
  destruct (status_eqb_spec (p_status (ps s p)) Varying) as [E|];
    [|now apply quiet_refl].
  destruct (p_bnd (ps s p)) as [[lo hi]|]; [|now apply quiet_refl].
  destruct (bad _ _); [destruct (ltb _ _ _)|]; now apply quiet_set_value_.
Qed.
Lemma unbounded_get_same : forall p (s : state), fst (unbounded_get p s) = s.
Proof.
  intros p s. unfold unbounded_get, bind, hnd, attr, ret, raise.
  destruct (p_status (ps s p)); try reflexivity.
  destruct (p_bnd (ps s p)) as [[lo hi]|]; [|reflexivity].
  destruct (p_value (ps s p)); reflexivity.
Qed.

Definition kquiet {A} (m : M N A) : Prop := forall s, Inv s -> quiet s (fst (m s)).
Lemma kquiet_bind : forall A B (m : M N A) (k : A -> M N B),
  kquiet m -> (forall a, kquiet (k a)) -> kquiet (bind m k).
Proof.
  intros A B m k H K s I. unfold bind. specialize (H s I).
  destruct (m s) as [s1 [a|e]]; cbn in *; [|exact H].
  eapply quiet_trans; [exact H|]. apply K. apply H.
Qed.
Lemma kquiet_ret : forall A (a : A), kquiet (ret a).
Proof. intros A a s I. now apply quiet_refl. Qed.
Lemma kquiet_raise : forall A e, kquiet (@raise _ A e).
Proof. intros A e s I. now apply quiet_refl. Qed.
Lemma kquiet_attr : forall A e (o : option A), kquiet (attr e o).
Proof. intros A e [a|] s I; now apply quiet_refl. Qed.
Lemma kquiet_get : kquiet get.
Proof. intros s I. now apply quiet_refl. Qed.
Lemma kquiet_hnd : forall p, kquiet (hnd p).
Proof. intros p s I. now apply quiet_refl. Qed.
Lemma kquiet_set_value : forall p v, kquiet (set_value p v).
Proof. intros p v s I. now apply quiet_set_value. Qed.
Lemma kquiet_uset : forall p v, kquiet (unbounded_set p v).
Proof. intros p v s I. now apply quiet_unbounded_set. Qed.
Lemma kquiet_uget : forall p, kquiet (unbounded_get p).
Proof. intros p s I. rewrite unbounded_get_same. now apply quiet_refl. Qed.
Lemma kquiet_for_each : forall A (l : list A) f, (forall a, kquiet (f a)) ->
  kquiet (for_each l f).
Proof.
  intros A l f H. induction l as [|a l IH]; [apply kquiet_ret|].
  cbn. apply kquiet_bind; auto.
Qed.
Lemma kquiet_log : forall evs, kquiet (modify (log_ev evs)).
Proof.
  intros evs s I. cbn. constructor; auto. destruct I as [L H]. constructor; [|exact H].
  now apply lists_log.
Qed.
Lemma kquiet_score_assign : forall unb vs, kquiet (score_assign unb vs).
Proof.
  intros. unfold score_assign. apply kquiet_bind; [apply kquiet_get|]. intros s.
  apply kquiet_for_each. intros [p v]. destruct unb; [apply kquiet_uset|apply kquiet_set_value].
Qed.
Lemma kquiet_score_eval : forall preds, kquiet (score_eval preds).
Proof. intros. apply kquiet_for_each. intros k. apply kquiet_log. Qed.

Section Oracles.
Variable preds : list nat.
Variable scoref : (nat -> option N) -> N.
Variable minimiser : state -> list N -> list N -> list (list N) * (list N * N).
Variable sns : sense.
Variable unb : bool.

Lemma kquiet_score : kquiet (score preds scoref).
Proof.
  unfold score. apply kquiet_bind; [apply kquiet_score_eval|]. intros _.
  apply kquiet_bind; [apply kquiet_get|]. intros s. apply kquiet_ret.
Qed.
Lemma kquiet_probe : forall p, kquiet (probe p).
Proof.
  intros p. unfold probe. apply kquiet_bind; [apply kquiet_uget|]. intros uv.
  apply kquiet_bind; [apply kquiet_hnd|]. intros h.
  apply kquiet_bind; [apply kquiet_attr|]. intros v.
  apply kquiet_bind; [apply kquiet_attr|]. intros d.
  apply kquiet_bind.
  - intros s I. pose proof (quiet_set_value p (add N v d) s I) as Q.
    destruct (set_value p (add N v d) s) as [s' [[]|e]]; cbn [fst] in Q.
    + eapply quiet_trans; [exact Q|].
      apply kquiet_bind; [apply kquiet_uget|intros; apply kquiet_ret|apply Q].
    + assert (Q2 : forall e0 : exn, quiet s (fst (s', @Err N e0))) by (intros; exact Q).
      destruct e; try exact Q.
      eapply quiet_trans; [exact Q|].
      apply kquiet_bind; [apply kquiet_set_value| |apply Q]. intros _.
      apply kquiet_bind; [apply kquiet_uget|intros; apply kquiet_ret].
  - intros dd. apply kquiet_bind; [apply kquiet_set_value|intros; apply kquiet_ret].
Qed.
Lemma kquiet_start : forall p, kquiet (@start N p).
Proof.
  intros p. unfold start. apply kquiet_bind; [apply kquiet_hnd|]. intros h.
  apply kquiet_bind; [apply kquiet_attr|]. intros v.
  apply kquiet_bind; [apply kquiet_attr|]. intros d. apply kquiet_ret.
Qed.
Lemma kquiet_coll : forall l f, (forall p, kquiet (f p)) -> kquiet (@collect N l f).
Proof.
  intros l f H. induction l as [|p l IH]; cbn; [apply kquiet_ret|].
  apply kquiet_bind; auto. intros a. apply kquiet_bind; auto. intros r. apply kquiet_ret.
Qed.
Lemma kquiet_optimize : kquiet (optimize preds scoref minimiser sns unb).
Proof.
  unfold optimize. apply kquiet_bind; [apply kquiet_get|]. intros s.
  destruct (varyl s) as [|v0 vl] eqn:Ev; [apply kquiet_raise|].
  apply kquiet_bind.
  { apply kquiet_coll. intros p. destruct unb; [apply kquiet_probe|apply kquiet_start]. }
  intros pd. apply kquiet_bind; [apply kquiet_get|]. intros s1.
  destruct (minimiser s1 (map fst pd) (map snd pd)) as [tries [params ext]].
  apply kquiet_bind.
  { apply kquiet_for_each. intros args. apply kquiet_bind; [|intros; apply kquiet_ret].
    unfold _score. apply kquiet_bind; [apply kquiet_score_assign|]. intros _.
    apply kquiet_bind; [apply kquiet_score|]. intros; apply kquiet_ret. }
  intros _. apply kquiet_bind; [apply kquiet_get|]. intros s2.
  destruct unb; [|apply kquiet_ret].
  apply kquiet_bind; [apply kquiet_attr|]. intros; apply kquiet_ret.
Qed.

Lemma score_total : forall s : state, exists s', score preds scoref s = (s', Ok (scoref (values s)))
  /\ values s' = values s.
Proof.
  intros s. unfold score, score_eval.
  assert (H : exists s', for_each preds evaluate s = (s', Ok tt) /\ ps s' = ps s).
  { clear. revert s. induction preds as [|k l IH]; intros s; [now exists s|].
    cbn [for_each]. unfold evaluate at 1, bind at 1, modify.
    destruct (IH (log_ev [EvUse; EvSignal k] s)) as (s' & E & P). exists s'. now split. }
  destruct H as (s' & E & P). rewrite (bind_ok _ _ _ _ _ _ _ _ E).
  exists s'. unfold values. cbn. now rewrite P.
Qed.

(** ** The loop *)
Definition point (varying : bool) : M N (list N * N) :=
  if varying then optimize preds scoref minimiser sns unb
  else v <- score preds scoref;; ret ([], v).
Lemma kquiet_point : forall b, kquiet (point b).
Proof.
  intros [|]; [apply kquiet_optimize|]. apply kquiet_bind; [apply kquiet_score|].
  intros; apply kquiet_ret.
Qed.

(** the result after one more cell *)
Definition record (varying vargrid : bool) (r : grid_result N) (ind : list Z)
    (o : list N * N) : grid_result N :=
  GridResult
    (Grid (g_shape (gr_grid r)) ((ind, snd o) :: g_cells (gr_grid r)))
    (if varying then
       match gr_opt r with
       | None => Some (snd o, ind)
       | Some (b, bi) => if better sns (snd o) b then Some (snd o, ind) else Some (b, bi)
       end
     else gr_opt r)
    (if varying && vargrid then (ind, fst o) :: gr_vec r else gr_vec r).

Lemma norm_in_grid : forall ns ind, in_grid ns ind ->
  norm_index (map Z.of_nat ns) ind = Some ind.
Proof.
  induction 1 as [|n k ns ind H F IH]; [reflexivity|].
  cbn. destruct (Z.ltb_spec k 0); [lia|].
  destruct (Z.leb_spec 0 k); [|lia]. destruct (Z.ltb_spec k (Z.of_nat n)); [|lia].
  cbn. now rewrite IH.
Qed.
Lemma all_some_map : forall A (l : list A), all_some (map Some l) = Some l.
Proof. induction l as [|a l IH]; [reflexivity|]. cbn. now rewrite IH. Qed.

Lemma grid_loop_S : forall fuel b vg r (s : state) ind ns,
  indices s ind -> in_grid ns ind -> g_shape (gr_grid r) = map Z.of_nat ns ->
  grid_loop preds scoref minimiser sns unb (S fuel) b vg r s =
  match point b s with
  | (s1, Ok o) =>
      match grid_step s1 with
      | (s2, Err StopStepping) => (s2, Ok (record b vg r ind o))
      | (s2, Err e) => (s2, Err e)
      | (s2, Ok _) => grid_loop preds scoref minimiser sns unb fuel b vg (record b vg r ind o) s2
      end
  | (s1, Err e) => (s1, Err e)
  end.
Proof.
  intros fuel b vg r s ind ns Hi Hg Hs. cbn [grid_loop].
  unfold bind at 1, get at 1. rewrite Hi, all_some_map.
  unfold bind at 1, attr at 1.
  assert (Hn : norm_index (g_shape (gr_grid r)) ind = Some ind).
  { rewrite Hs. now apply norm_in_grid. }
  destruct b; cbn [point].
  - unfold bind. destruct (optimize preds scoref minimiser sns unb s) as [s1 [[o v]|e]];
      [|reflexivity].
    unfold write. rewrite Hn. unfold ret, record. cbn [fst snd].
    destruct vg; reflexivity.
  - unfold bind. destruct (score preds scoref s) as [s1 [v|e]]; [|reflexivity].
    unfold write, ret. rewrite Hn. unfold record. cbn [fst snd]. reflexivity.
Qed.

Lemma quiet_axes : forall (s s' : state) l al, quiet s s' ->
  Forall2 (axis_ok s) l al -> Forall2 (axis_ok s') l al.
Proof.
  intros s s' l al Q F. induction F as [|p a l al A F IH]; constructor; auto.
  assert (E : ps s' p = ps s p) by (apply Q; rewrite (ao_status _ _ _ A); discriminate).
  destruct A. constructor; rewrite ?E, ?(qt_i _ _ Q); auto.
Qed.

Definition records (b vg : bool) (r : grid_result N) (l : list (list Z * (list N * N))) :=
  fold_left (fun r io => record b vg r (fst io) (snd io)) l r.

Lemma setup_refl : forall s : state, same_setup s s.
Proof. intros s. repeat split; auto. Qed.
Lemma setup_trans : forall s s1 s2 : state, same_setup s s1 -> same_setup s1 s2 -> same_setup s s2.
Proof.
  intros s s1 s2 (A1 & A2 & A3 & A4 & A5) (B1 & B2 & B3 & B4 & B5).
  split; [congruence|]. split; [congruence|]. split; [congruence|]. split.
  - intros q Hq. rewrite B4 by congruence. now apply A4.
  - intros q Hq. destruct (A5 q Hq) as (C1 & C2 & C3 & C4).
    destruct (B5 q) as (D1 & D2 & D3 & D4); [congruence|]. repeat split; congruence.
Qed.
Lemma quiet_setup : forall s s' : state, Inv s -> quiet s s' -> same_setup s s'.
Proof.
  intros s s' I Q. split; [apply Q|]. split; [apply Q|]. split; [apply Q|]. split.
  - intros q Hq. apply Q. rewrite (proj1 (lm_fixed _ (iv_lm _ I) q) Hq). discriminate.
  - intros q Hq. rewrite (qt_ps _ _ Q); auto.
    rewrite (proj1 (lm_step _ (iv_lm _ I) q) Hq). discriminate.
Qed.
Lemma stepped_setup : forall h h' : pst N, steps_from h h' ->
  p_slo h' = p_slo h /\ p_shi h' = p_shi h /\ p_steps h' = p_steps h /\ p_stype h' = p_stype h.
Proof.
  induction 1 as [|h1 h2 A IH B]; [auto|].
  destruct B as (k & n & v & v' & _ & _ & _ & [(_ & -> & _)|(_ & -> & _)]); cbn; exact IH.
Qed.
Lemma inside_setup : forall s s' : state, Inv s -> inside s s' -> same_setup s s'.
Proof.
  intros s s' I J. split; [apply J|]. split; [apply J|]. split; [apply J|]. split.
  - intros q Hq. apply J. intros K.
    apply (lm_fixed _ (iv_lm _ I)) in Hq. apply (lm_step _ (iv_lm _ I)) in K. congruence.
  - intros q Hq. apply stepped_setup. now apply J.
Qed.

(** the end of the loop *)
Definition done (s e : state) : Prop := Inv e /\ at_start e /\ same_setup s e.

Lemma rewind_setup : forall h : pst N, 
  p_slo (rewind h) = p_slo h /\ p_shi (rewind h) = p_shi h /\ p_steps (rewind h) = p_steps h
  /\ p_stype (rewind h) = p_stype h.
Proof. intros h. unfold rewind. destruct (p_slo h) eqn:E; cbn; rewrite ?E; auto. Qed.

Lemma loop_path : forall al vs, path al vs -> forall fuel b vg r (s : state) ns,
  length vs <= fuel -> Inv s -> stepl s <> [] -> Forall2 (axis_ok s) (stepl s) al ->
  Forall (in_grid ns) vs -> g_shape (gr_grid r) = map Z.of_nat ns ->
  (b = false -> exists e r', grid_loop preds scoref minimiser sns unb fuel b vg r s = (e, Ok r'))
  /\ (forall e r', grid_loop preds scoref minimiser sns unb fuel b vg r s = (e, Ok r') ->
       exists os, traversal (point b) s vs os e /\ r' = records b vg r (combine vs os)
         /\ done s e).
Proof.
  induction 1 as [al E|al al' vs E P IH]; intros fuel b vg r s ns Hf I Hne F Hg Hs;
    (destruct fuel as [|fuel]; [cbn in Hf; lia|]);
    inversion Hg as [|? ? Hg1 Hg2]; subst;
    assert (Hi : indices s (aidx al)) by (now apply axes_indices);
    rewrite (grid_loop_S fuel b vg r s (aidx al) ns Hi Hg1 Hs);
    pose proof (kquiet_point b s I) as Q;
    assert (Tot : b = false -> exists s1 o, point b s = (s1, Ok o)) by
      (intros ->; cbn; destruct (score_total s) as (s1 & E1 & _);
       unfold bind; rewrite E1; unfold ret; eauto);
    destruct (point b s) as [s1 [o|x]] eqn:Ep; cbn [fst] in Q.
  - assert (Es : stepl s1 = stepl s) by apply Q.
    pose proof (grid_step_sim al s1) as K. rewrite E, Es in K.
    destruct K as (s2 & e & G & I' & R & P1 & L1 & L2 & L3); auto.
    { eapply quiet_axes; eauto. }
    { apply Q. }
    rewrite G. split; [eauto|]. intros e0 r' Heq. injection Heq as <- <-.
    exists [o]. split; [econstructor; eauto|]. split; [reflexivity|].
    assert (I1 : Inv s1) by apply Q.
    split; [exact I'|]. split.
    + intros p Hp. rewrite (rr_s _ _ R) in Hp.
      rewrite (rr_ps _ _ R), (rr_i _ _ R), P1. apply mem_In in Hp as Hm. rewrite Hm.
      destruct (hok_ready _ (iv_h _ I1 p)) as [_ [v Hv]].
      { apply (lm_step _ (iv_lm _ I1)). congruence. }
      unfold rewind. rewrite Hv. cbn. repeat split. now rewrite Hv.
    + eapply setup_trans; [apply quiet_setup; eauto|].
      split; [rewrite (rr_f _ _ R); exact L1|].
      split; [rewrite (rr_v _ _ R); exact L2|].
      split; [rewrite (rr_s _ _ R); congruence|]. split.
      * intros q Hq. rewrite (rr_ps _ _ R), P1, L3.
        destruct (mem_spec q (stepl s)) as [K|]; [|reflexivity].
        exfalso. rewrite <- Es in K.
        apply (lm_fixed _ (iv_lm _ I1)) in Hq. apply (lm_step _ (iv_lm _ I1)) in K. congruence.
      * intros q Hq. rewrite (rr_ps _ _ R), P1, L3. rewrite Es in Hq.
        apply mem_In in Hq. rewrite Hq. apply rewind_setup.
  - split.
    + intros Hb. destruct (Tot Hb) as (? & ? & ?). congruence.
    + intros e r' H. discriminate.
  - assert (Es : stepl s1 = stepl s) by apply Q.
    pose proof (grid_step_sim al s1) as K. rewrite E, Es in K.
    destruct K as (s2 & G & I' & F' & O); auto.
    { eapply quiet_axes; eauto. }
    { apply Q. }
    rewrite G.
    assert (J : inside s1 s2) by (apply inside_step; [exact I'|]; now rewrite Es).
    assert (Es2 : stepl s2 = stepl s) by (rewrite (in_s _ _ J); exact Es).
    destruct (IH fuel b vg (record b vg r (aidx al) o) s2 ns) as [IH1 IH2]; auto.
    { cbn in Hf; lia. }
    { congruence. }
    { now rewrite Es2. }
    split; [exact IH1|]. intros e r' H.
    destruct (IH2 e r' H) as (os & T & Er & D1 & D2 & D3).
    exists (o :: os). split; [econstructor; eauto|]. split; [exact Er|].
    split; [exact D1|]. split; [exact D2|].
    eapply setup_trans; [apply quiet_setup; eauto|].
    eapply setup_trans; [|exact D3]. apply inside_setup; [apply Q|exact J].
  - split.
    + intros Hb. destruct (Tot Hb) as (? & ? & ?). congruence.
    + intros e r' H. discriminate.
Qed.

(** ** do_grid *)
Lemma all_some_ok : forall A (l : list nat) (f : nat -> option A),
  (forall p, In p l -> f p <> None) -> exists r, all_some (map f l) = Some r.
Proof.
  intros A l f. induction l as [|p l IH]; intros H; [now exists []|].
  cbn. destruct (f p) as [a|] eqn:E; [|exfalso; eapply H; eauto; now left].
  destruct IH as (r & ->); [intros q Hq; apply H; now right|]. eauto.
Qed.

Lemma new_grid_ok : forall (s : state) ns, Inv s -> sizes s ns ->
  new_grid s = (s, Ok (Grid (map Z.of_nat ns) [])).
Proof.
  intros s ns I Hs. unfold new_grid, bind at 1, get.
  assert (St : forall p, In p (stepl s) -> p_status (ps s p) = Stepping)
    by (intros p Hp; now apply (lm_step _ (iv_lm _ I))).
  destruct (all_some_ok N (stepl s) (fun p => p_slo (ps s p))) as (l & ->).
  { intros p Hp. now apply (ho_step _ (iv_h _ I p) (St p Hp)). }
  unfold bind at 1, attr at 1.
  destruct (all_some_ok N (stepl s) (fun p => p_shi (ps s p))) as (l' & ->).
  { intros p Hp. now apply (ho_step _ (iv_h _ I p) (St p Hp)). }
  unfold bind at 1, attr at 1. rewrite Hs.
  replace (map (fun n => Some (Z.of_nat n)) ns) with (map Some (map Z.of_nat ns))
    by (now rewrite map_map).
  rewrite all_some_map. unfold bind, attr.
  assert (Hn : existsb (fun n => Z.ltb n 0) (map Z.of_nat ns) = false).
  { clear. induction ns as [|n ns IH]; [reflexivity|]. cbn. rewrite IH.
    destruct (Z.ltb_spec (Z.of_nat n) 0); [lia|reflexivity]. }
  now rewrite Hn.
Qed.

Lemma records_cells : forall b vg l r,
  gr_grid (records b vg r l) =
    Grid (g_shape (gr_grid r)) (rev (map (fun io => (fst io, snd (snd io))) l) ++ g_cells (gr_grid r))
  /\ gr_vec (records b vg r l) =
      (if b && vg then rev (map (fun io => (fst io, fst (snd io))) l) else []) ++ gr_vec r
  /\ gr_opt (records b vg r l) =
      (if b then first_best (better sns) (gr_opt r) (map (fun io => (fst io, snd (snd io))) l)
       else gr_opt r).
Proof.
  intros b vg l. induction l as [|[i [p v]] l IH]; intros r.
  - cbn. destruct r as [[] ? ?]. cbn. destruct (b && vg), b; auto.
  - cbn [records fold_left fst snd].
    destruct (IH (record b vg r i (p, v))) as (A & B & C). unfold records in *.
    rewrite A, B, C. cbn [record gr_grid gr_opt gr_vec g_shape g_cells fst snd map rev].
    rewrite <- app_assoc. cbn [app first_best]. split; [reflexivity|]. split.
    + destruct (b && vg); cbn; [|reflexivity]. now rewrite <- app_assoc.
    + destruct b; reflexivity.
Qed.

Lemma find_cell_rev : forall (ind : list Z) (l : list (list Z * N)) v,
  NoDup (map fst l) -> In (ind, v) l -> find_cell ind (rev l) = Some v.
Proof.
  intros ind l v ND Hin.
  assert (ND' : NoDup (map fst (rev l))).
  { rewrite map_rev. now apply NoDup_rev. }
  apply in_rev in Hin. revert ND' Hin. generalize (rev l). clear.
  induction l as [|[i w] l IH]; intros ND H; [destruct H|destruct H as [H|H]]; cbn.
  - injection H as -> ->. destruct (list_eq_dec Z.eq_dec ind ind); [reflexivity|now elim n].
  - inversion ND; subst. destruct (list_eq_dec Z.eq_dec i ind) as [->|].
    + exfalso. apply H2. apply in_map_iff. exists (ind, v). now split.
    + now apply IH.
Qed.

Lemma traversal_length : forall pt (s : state) vs os e,
  traversal pt s vs os e -> length vs = length os.
Proof. induction 1; cbn; congruence. Qed.

Lemma do_grid_correct : forall fuel vg (s : state) ns,
  Inv s -> stepl s <> [] -> at_start s ->
  (forall p, In p (stepl s) -> steppable (ps s p)) -> sizes s ns -> ncells ns <= fuel ->
  let b := match varyl s with [] => false | _ => true end in
  (b = false -> vg = false ->
     exists e r, do_grid preds scoref minimiser sns unb fuel vg s = (e, Ok r))
  /\ (forall e r, do_grid preds scoref minimiser sns unb fuel vg s = (e, Ok r) ->
       exists os, traversal (point b) s (snake ns) os e
         /\ g_shape (gr_grid r) = map Z.of_nat ns
         /\ (forall ind o, In (ind, o) (combine (snake ns) os) -> cell (gr_grid r) ind = Some (snd o))
         /\ (forall ind v, cell (gr_grid r) ind = Some v -> in_grid ns ind)
         /\ gr_opt r = (if b then first_best (better sns) None (combine (snake ns) (map snd os)) else None)
         /\ (forall ind o, b && vg = true -> In (ind, o) (combine (snake ns) os) -> In (ind, fst o) (gr_vec r))
         /\ done s e).
Proof.
  intros fuel vg s ns I Hne A St Hs Hf b.
  destruct (start_axes s (stepl s) ns) as [F H1]; auto.
  assert (Hlen : length (snake ns) <= fuel) by (rewrite length_snake; exact Hf).
  assert (Hg : Forall (in_grid ns) (snake ns)).
  { apply Forall_forall. intros ind Hin. now apply snake_complete. }
  destruct (loop_path _ _ (path_snake ns H1) fuel b vg
      (GridResult (Grid (map Z.of_nat ns) []) None []) s ns Hlen I Hne F Hg eq_refl) as [T1 T2].
  unfold do_grid. rewrite (bind_ok _ _ _ _ _ _ _ _ (new_grid_ok s ns I Hs)).
  unfold bind at 1 3, get. fold b. split.
  - intros Hb ->. destruct (T1 Hb) as (e & r & E). rewrite (bind_ok _ _ _ _ _ _ _ _ E).
    cbn. unfold ret; eauto.
  - intros e r H.
    destruct (grid_loop preds scoref minimiser sns unb fuel b vg
       (GridResult (Grid (map Z.of_nat ns) []) None []) s) as [e1 [r1|x]] eqn:E.
    2:{ rewrite (bind_err _ _ _ _ _ _ _ _ E) in H. discriminate. }
    rewrite (bind_ok _ _ _ _ _ _ _ _ E) in H.
    destruct (vg && negb b); [discriminate|]. injection H as <- <-.
    destruct (T2 e1 r1 eq_refl) as (os & Tr & -> & D). exists os. split; [exact Tr|].
    destruct (records_cells b vg (combine (snake ns) os)
       (GridResult (Grid (map Z.of_nat ns) []) None [])) as (C1 & C2 & C3).
    rewrite C1, C2, C3. cbn [gr_grid gr_opt gr_vec g_shape g_cells].
    pose proof (traversal_length _ _ _ _ _ Tr) as Len.
    assert (Mf : map fst (combine (snake ns) os) = snake ns).
    { revert Len. clear. generalize (snake ns). intros l. revert os.
      induction l as [|a l IH]; intros [|o os] L; cbn in *; try discriminate; [reflexivity|].
      f_equal. apply IH. lia. }
    assert (Ms : map (fun io => (fst io, snd (snd io))) (combine (snake ns) os)
             = combine (snake ns) (map snd os)).
    { revert Len. clear. generalize (snake ns). intros l. revert os.
      induction l as [|a l IH]; intros [|o os] L; cbn in *; try discriminate; [reflexivity|].
      f_equal. apply IH. lia. }
    split; [reflexivity|]. split; [|split; [|split; [|split; [|exact D]]]].
    + intros ind o Hin. unfold cell. cbn [g_cells]. rewrite app_nil_r.
      apply find_cell_rev.
      * rewrite map_map. cbn [fst].
        change (NoDup (map fst (combine (snake ns) os))). rewrite Mf. apply snake_NoDup.
      * apply in_map_iff. exists (ind, o). now split.
    + intros ind v Hc. unfold cell in Hc. cbn [g_cells] in Hc. rewrite app_nil_r in Hc.
      assert (In ind (snake ns)).
      { rewrite <- Mf.
        assert (K : forall l, find_cell ind l = Some v -> In (ind, v) l).
        { clear. induction l as [|[i w] l IH]; cbn; [discriminate|].
          destruct (list_eq_dec Z.eq_dec i ind) as [->|]; [intros [= ->]; now left|auto]. }
        apply K in Hc. apply in_rev in Hc. apply in_map_iff in Hc as ([i [q w]] & Hx & Hy).
        cbn in Hx. injection Hx as -> ->. apply in_map_iff. now exists (ind, (q, v)). }
      now apply snake_complete.
    + now rewrite Ms.
    + intros ind o -> Hin. rewrite app_nil_r. apply in_rev. rewrite rev_involutive.
      apply in_map_iff. exists (ind, o). now split.
Qed.

End Oracles.
End Gen.
