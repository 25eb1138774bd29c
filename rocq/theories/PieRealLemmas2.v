(** Values and their declared range; the unbounded transform. *)

From Coq Require Import ZArith List Bool Arith Lia Reals Lra.
From Verif Require Import Exn PieModel PieSpec PieLemmas PieLemmas2 PieGridModel PieGridSpec
  PieGridLemmas PieGridLemmas2 PieKeep PieExact Instances PieRealSpec PieRealLemmas.
Import ListNotations.
Open Scope exn_scope.
Open Scope R_scope.

Record pin (lo hi : R) (h : pst numR) : Prop := {
  pin_def : p_status h <> Undef;
  pin_bnd : p_bnd h = Some ((lo, hi) : numR * numR);
  pin_val : exists v : R, p_value h = Some v /\ lo <= v <= hi;
  pin_step : p_status h = Stepping -> exists f n, on_lattice f n h
     /\ (forall k, (0 <= k < n)%Z -> lo <= f k <= hi)
}.

Lemma within_R : forall v lo hi : R,
  within (v : numR) ((lo, hi) : numR * numR) = true -> lo <= v <= hi.
Proof.
  intros v lo hi H. unfold within in H. apply andb_true_iff in H as [A B]. cbn in *.
  apply Rleb_spec in A. apply Rleb_spec in B. lra.
Qed.

Lemma pin_rewind : forall lo hi h, pin lo hi h -> p_status h = Stepping -> pin lo hi (rewind h).
Proof.
  intros lo hi h [A B C D] St. destruct (D St) as (f & n & L & Hf).
  pose proof (lattice_rewind f n h L) as L'.
  assert (St' : p_status (rewind h) = Stepping) by apply L'.
  constructor.
  - congruence.
  - rewrite <- B. unfold rewind. destruct (p_slo h); reflexivity.
  - destruct (ol_val _ _ _ L') as (k & _ & Hk & E). exists (f k). auto.
  - intros _. now exists f, n.
Qed.

(** between the ends *)
Lemma lin_between : forall a b lo hi n k, (2 <= n)%Z -> (0 <= k < n)%Z ->
  lo <= a <= hi -> lo <= b <= hi -> lo <= lin_value a b n k <= hi.
Proof.
  intros a b lo hi n k Hn Hk Ha Hb. unfold lin_value.
  assert (H1 : 0 < IZR (n - 1)) by (apply IZR_lt; lia).
  assert (H2 : 0 <= IZR k) by (apply IZR_le; lia).
  assert (H3 : IZR k <= IZR (n - 1)) by (apply IZR_le; lia).
  set (t := IZR k / IZR (n - 1)).
  assert (T1 : 0 <= t) by (apply Rmult_le_pos; auto; left; now apply Rinv_0_lt_compat).
  assert (T2 : t <= 1).
  { unfold t. apply Rmult_le_reg_r with (IZR (n - 1)); auto. unfold Rdiv.
    rewrite Rmult_assoc, Rinv_l; lra. }
  replace (a + IZR k * (b - a) / IZR (n - 1)) with (a * (1 - t) + b * t)
    by (unfold t; field; lra).
  split.
  - apply Rle_trans with (lo * (1 - t) + lo * t); [lra|].
    apply Rplus_le_compat; apply Rmult_le_compat_r; lra.
  - apply Rle_trans with (hi * (1 - t) + hi * t); [|lra].
    apply Rplus_le_compat; apply Rmult_le_compat_r; lra.
Qed.

Lemma exp_le : forall x y, x <= y -> exp x <= exp y.
Proof. intros x y [H| ->]; [left; now apply exp_increasing|lra]. Qed.

Lemma pow_between : forall r t, 0 < r -> 0 <= t <= 1 ->
  (1 <= r -> 1 <= exp (t * ln r) <= r) /\ (r <= 1 -> r <= exp (t * ln r) <= 1).
Proof.
  intros r t Hr Ht. split; intros H.
  - assert (0 <= ln r) by (rewrite <- ln_1; destruct H as [H|<-]; [left; apply ln_increasing; lra|lra]).
    split.
    + rewrite <- exp_0. apply exp_le. now apply Rmult_le_pos.
    + rewrite <- (exp_ln r) at 2 by assumption. apply exp_le.
      rewrite <- (Rmult_1_l (ln r)) at 2. apply Rmult_le_compat_r; lra.
  - assert (ln r <= 0) by (rewrite <- ln_1; destruct H as [H| ->]; [left; apply ln_increasing; lra|lra]).
    split.
    + rewrite <- (exp_ln r) at 1 by assumption. apply exp_le. nra.
    + rewrite <- exp_0. apply exp_le. nra.
Qed.

Lemma log_between : forall a b lo hi n k, (2 <= n)%Z -> (0 <= k < n)%Z -> 0 < a * b ->
  lo <= a <= hi -> lo <= b <= hi -> lo <= log_value a b n k <= hi.
Proof.
  intros a b lo hi n k Hn Hk Hab Ha Hb. unfold log_value, Rpower.
  assert (H1 : 0 < IZR (n - 1)) by (apply IZR_lt; lia).
  assert (H2 : 0 <= IZR k) by (apply IZR_le; lia).
  assert (H3 : IZR k <= IZR (n - 1)) by (apply IZR_le; lia).
  set (t := IZR k / IZR (n - 1)).
  assert (T1 : 0 <= t) by (apply Rmult_le_pos; auto; left; now apply Rinv_0_lt_compat).
  assert (T2 : t <= 1).
  { unfold t. apply Rmult_le_reg_r with (IZR (n - 1)); auto. unfold Rdiv.
    rewrite Rmult_assoc, Rinv_l; lra. }
  assert (Na : a <> 0) by (intros ->; lra).
  pose proof (same_sign_div a b Hab) as Hr.
  assert (Eb : b = a * (b / a)) by (field; auto).
  destruct (pow_between (b / a) t Hr (conj T1 T2)) as [P1 P2].
  set (w := exp (t * ln (b / a))) in *. set (r := b / a) in *.
  destruct (Rlt_dec 0 a) as [Pa|Pa]; destruct (Rle_dec 1 r) as [Cr|Cr].
  - specialize (P1 Cr). nra.
  - assert (Cr' : r <= 1) by lra. specialize (P2 Cr'). nra.
  - specialize (P1 Cr). nra.
  - assert (Cr' : r <= 1) by lra. specialize (P2 Cr'). nra.
Qed.

Lemma check_end_R : forall (lo hi v : R) (s : state),
  check_end (Some ((lo, hi) : numR * numR)) (Some (v : numR)) s = (s, Ok tt) -> lo <= v <= hi.
Proof.
  intros lo hi v s. cbn.
  destruct (Rltb v lo) eqn:A; [discriminate|]. destruct (Rltb hi v) eqn:B; [discriminate|].
  intros _. apply Rltb_false in A. apply Rltb_false in B. lra.
Qed.

Lemma linstep_pin : forall (s s' : state) p (a b lo hi : R) n, Inv s -> defined s p -> (2 <= n)%Z ->
  p_bnd (ps s p) = Some ((lo, hi) : numR * numR) ->
  linstep p (Some (a : numR)) (Some (b : numR)) n s = (s', Ok tt) -> pin lo hi (ps s' p).
Proof.
  intros s s' p a b lo hi n I D Hn Hb H.
  destruct (linstep_ok s s' p _ _ n I D H) as (a' & b' & Ea & Eb & _ & C1 & C2 & SS).
  injection Ea as <-. injection Eb as <-. rewrite Hb in C1, C2.
  apply check_end_R in C1. apply check_end_R in C2.
  rewrite (sst_p _ _ _ _ SS).
  pose proof (lin_lattice (ps s p) a b n Hn) as L.
  constructor; cbn; auto; try discriminate.
  - exists a. auto.
  - intros _. exists (lin_value a b n), n. split; [exact L|].
    intros k Hk. now apply lin_between.
Qed.

Lemma logstep_pin : forall (s s' : state) p (a b lo hi : R) n, Inv s -> defined s p -> (2 <= n)%Z ->
  p_bnd (ps s p) = Some ((lo, hi) : numR * numR) ->
  logstep p (Some (a : numR)) (Some (b : numR)) n s = (s', Ok tt) -> pin lo hi (ps s' p).
Proof.
  intros s s' p a b lo hi n I D Hn Hb H.
  destruct (logstep_ok s s' p _ _ n I D H)
    as (a' & b' & l & u & Ea & Eb & C1 & C2 & Hm & Ha & -> & Hu & SS).
  injection Ea as <-. injection Eb as <-. rewrite Hb in C1, C2.
  apply check_end_R in C1. apply check_end_R in C2.
  cbn in Hm, Ha, Hu. apply Rleb_false in Hm.
  assert (Hp : 0 < a * b) by lra.
  assert (u = b) as ->. { apply Hu. apply Reqb_false. intros ->. lra. }
  rewrite (sst_p _ _ _ _ SS).
  pose proof (log_lattice (ps s p) a b n Hn Hp) as L.
  constructor; cbn; auto; try discriminate.
  - exists a. auto.
  - intros _. exists (log_value a b n), n. split; [exact L|].
    intros k Hk. now apply log_between.
Qed.

Section Pin.
Variable (lo hi : R) (p : nat) (dflt : nat -> option numR).
Let P := pin lo hi.

Lemma pin_defined : forall s : state, P (ps s p) -> defined s p.
Proof. intros s H. apply H. Qed.
Lemma pin_access : forall s : state, P (ps s p) -> access dflt p s = (s, Ok tt).
Proof.
  intros s H. unfold access, bind, hnd. destruct (pin_val _ _ _ H) as (v & -> & _). reflexivity.
Qed.
Lemma pin_via : forall m : M numR unit, keeps p P m -> keeps p P (access dflt p;;; m).
Proof.
  intros m K s I L. rewrite (bind_ok _ _ _ _ _ _ _ _ (pin_access s L)). now apply K.
Qed.

(** moves on the lattice keep the range *)
Lemma pin_lattice : forall (m : M numR unit),
  (forall s, Inv s -> Inv (fst (m s))) ->
  (forall f n, keeps p (on_lattice f n) m) ->
  (forall s, p_bnd (ps (fst (m s)) p) = p_bnd (ps s p)) ->
  (forall s, p_status (ps s p) <> Stepping -> fst (m s) = s) ->
  keeps p P m.
Proof.
  intros m HI HL HB HN s I H. split; [now apply HI|].
  destruct (status_eqb_spec (p_status (ps s p)) Stepping) as [E|E].
  - destruct (pin_step _ _ _ H E) as (f & n & L & Hf).
    destruct (HL f n s I L) as [_ L'].
    constructor.
    + rewrite (ol_status _ _ _ L'). discriminate.
    + rewrite HB. apply H.
    + destruct (ol_val _ _ _ L') as (k & _ & Hk & Ev). exists (f k). auto.
    + intros _. now exists f, n.
  - rewrite HN by assumption. exact H.
Qed.

Lemma pin_next : keeps p P (p_next_step p).
Proof.
  apply pin_lattice.
  - intros s I. apply (p_next_good p s s I (track_refl _ _)).
  - intros. apply keep_next.
  - intros s. unfold p_next_step, bind, hnd, attr, put, modify, raise.
    destruct (ps s p) as [st va bn de fa ty sl sh sn nu ls] eqn:E.
    destruct st; cbn; rewrite ?E; cbn; auto. destruct nu; cbn; rewrite ?E; cbn; auto.
    destruct sn; cbn; rewrite ?E; cbn; auto. destruct (Z.eqb _ _); cbn; rewrite ?E; cbn; auto.
    destruct ty as [ty|]; cbn; rewrite ?upd_same, ?E; auto.
    destruct (Z.eqb _ _); [destruct sh|destruct va; [destruct ty; [destruct de|destruct fa]|]];
      cbn -[set_value_]; rewrite ?set_value__eq; cbn; rewrite ?upd_same, ?E; reflexivity.
  - intros s H. unfold p_next_step, bind, hnd.
    destruct (status_eqb_spec (p_status (ps s p)) Stepping); [contradiction|reflexivity].
Qed.
Lemma pin_prev : keeps p P (p_prev_step p).
Proof.
  apply pin_lattice.
  - intros s I. apply (p_prev_good p s s I (track_refl _ _)).
  - intros. apply keep_prev.
  - intros s. unfold p_prev_step, bind, hnd, attr, put, modify, raise.
    destruct (ps s p) as [st va bn de fa ty sl sh sn nu ls] eqn:E.
    destruct st; cbn; rewrite ?E; cbn; auto. destruct nu; cbn; rewrite ?E; cbn; auto.
    destruct (Z.eqb _ _); cbn; rewrite ?E; cbn; auto.
    destruct ty as [ty|]; cbn; rewrite ?upd_same, ?E; auto.
    destruct (Z.eqb _ _); [destruct sl|destruct va; [destruct ty; [destruct de|destruct fa]|]];
      cbn -[set_value_]; rewrite ?set_value__eq; cbn; rewrite ?upd_same, ?E; reflexivity.
  - intros s H. unfold p_prev_step, bind, hnd.
    destruct (status_eqb_spec (p_status (ps s p)) Stepping); [contradiction|reflexivity].
Qed.
Lemma pin_first : keeps p P (first_step p).
Proof.
  apply pin_lattice.
  - intros s I. apply (first_good p s s I (track_refl _ _)).
  - intros. apply keep_first.
  - intros s. unfold first_step, bind, hnd, attr, put, modify, raise.
    destruct (ps s p) as [st va bn de fa ty sl sh sn nu ls] eqn:E.
    destruct st; cbn; rewrite ?E; cbn; auto.
    destruct sl; cbn -[set_value_]; rewrite ?set_value__eq; cbn; rewrite ?upd_same, ?E; reflexivity.
  - intros s H. unfold first_step, bind, hnd.
    destruct (status_eqb_spec (p_status (ps s p)) Stepping); [contradiction|reflexivity].
Qed.
Lemma pin_last : keeps p P (last_step p).
Proof.
  apply pin_lattice.
  - intros s I. apply (last_good p s s I (track_refl _ _)).
  - intros. apply keep_last.
  - intros s. unfold last_step, bind, hnd, attr, put, modify, raise.
    destruct (ps s p) as [st va bn de fa ty sl sh sn nu ls] eqn:E.
    destruct st; cbn; rewrite ?E; cbn; auto.
    destruct sn; cbn; rewrite ?E; cbn; auto.
    destruct sh; cbn -[set_value_]; rewrite ?set_value__eq; cbn; rewrite ?upd_same, ?E; reflexivity.
  - intros s H. unfold last_step, bind, hnd.
    destruct (status_eqb_spec (p_status (ps s p)) Stepping); [contradiction|reflexivity].
Qed.

Lemma pin_value : forall h v, P h -> p_status h = Varying -> lo <= v <= hi ->
  P (with_value (v : numR) h).
Proof.
  intros h v [A B C D] E H. constructor; cbn; auto; [now exists v|congruence].
Qed.

Lemma pin_sv : forall v, keeps p P (set_value p v).
Proof.
  intros v s I H. split; [apply (set_value_good p s s v I (track_refl _ _))|].
  unfold set_value, bind, hnd.
  destruct (status_eqb_spec (p_status (ps s p)) Varying) as [E|E]; [|exact H].
  rewrite (pin_bnd _ _ _ H). destruct (within v _) eqn:W; [|exact H].
  rewrite set_value__eq. cbn. rewrite upd_same. apply pin_value; auto. now apply within_R.
Qed.

Lemma logistic_between : forall l h u, l <= h ->
  l <= (l + h * exp u) / (1 + exp u) <= h.
Proof.
  intros l h u H. pose proof (exp_pos u) as E. set (e := exp u) in *.
  assert (0 < 1 + e) by lra.
  split; apply Rmult_le_reg_r with (1 + e); auto; unfold Rdiv;
    rewrite Rmult_assoc, Rinv_l, Rmult_1_r by lra; nra.
Qed.

Lemma pin_le : forall h, P h -> lo <= hi.
Proof. intros h H. destruct (pin_val _ _ _ H) as (v & _ & Hv). lra. Qed.

Lemma pin_us : forall v, keeps p P (unbounded_set p v).
Proof.
  intros v s I H. split; [apply (unbounded_set_good p s s v I (track_refl _ _))|].
  unfold unbounded_set, bind, hnd.
  destruct (status_eqb_spec (p_status (ps s p)) Varying) as [E|E]; [|exact H].
  rewrite (pin_bnd _ _ _ H). cbn [bad numR].
  rewrite set_value__eq. cbn. rewrite upd_same. apply pin_value; auto.
  apply logistic_between. eapply pin_le; eauto.
Qed.

Lemma pin_fix : forall o, keeps p P (fix_ p o).
Proof.
  intros o s I H. split; [apply (fix_good p s s o I (track_refl _ _))|].
  destruct (fix_exact p o s I (pin_defined s H)) as [[_ E]|[W (s1 & s' & E & I' & Ep & _)]];
    rewrite E; [exact H|].
  cbn [fst]. rewrite Ep. destruct H as [A B C D]. rewrite B in W.
  destruct o as [v|]; constructor; cbn; auto; try discriminate.
  exists v. split; auto. now apply within_R.
Qed.

Lemma pin_vary : forall o d, keeps p P (vary p o d None).
Proof.
  intros o d s I H. pose proof (pin_defined s H) as D.
  split; [apply (vary_good p s s o d None I (track_refl _ _) D)|].
  assert (K : {d = None /\ p_delta (ps s p) = None} + {d = None -> p_delta (ps s p) <> None}).
  { destruct d; [right; discriminate|]. destruct (p_delta (ps s p)); [right; discriminate|left; auto]. }
  destruct K as [[-> Ed]|K].
  - unfold vary, bind, hnd. rewrite (pin_bnd _ _ _ H), Ed. exact H.
  - destruct (vary_exact p o d s _ I D (pin_bnd _ _ _ H) K) as (s1 & s' & I' & A & C & Ep & E).
    rewrite E.
    assert (H' : P (ps s' p)).
    { rewrite Ep. destruct H as [A1 B1 C1 D1]. destruct d; constructor; cbn; auto; discriminate. }
    destruct o as [v|]; [|exact H'].
    destruct (within v _) eqn:W; [|exact H'].
    cbn. rewrite upd_same. apply pin_value; auto; [now rewrite Ep|now apply within_R].
Qed.

Lemma pin_sp : forall pv, keeps p P (set_params dflt [p] pv).
Proof.
  intros pv s I H. unfold set_params. cbn [for_each]. rewrite bind_ret_tt.
  rewrite (bind_ok _ _ _ _ _ _ _ _ (pin_access s H)).
  change ((h <- hnd p;; match p_status h with
      | Fixed => v <- attr AttributeError (pv p);; fix_ p (Some v)
      | Varying => v <- attr AttributeError (pv p);; vary p (Some v) None None
      | _ => raise ParamError end) s)
   with (match p_status (ps s p) with
      | Fixed => v <- attr AttributeError (pv p);; fix_ p (Some v)
      | Varying => v <- attr AttributeError (pv p);; vary p (Some v) None None
      | _ => raise ParamError end s).
  destruct (p_status (ps s p)); try (now split).
  - destruct (pv p); [|now split]. cbn [attr]. now apply pin_fix.
  - destruct (pv p); [|now split]. cbn [attr]. now apply pin_vary.
Qed.

Lemma pin_op : forall o, target o = Some p -> keeps_range p o -> keeps p P (run_op dflt o).
Proof.
  intros o T A. destruct o; cbn in T, A; try discriminate; injection T as ->; cbn [run_op];
    try congruence; try (apply pin_via).
  - intros s I L. rewrite pin_access by exact L. now split.
  - apply pin_fix.
  - apply pin_sv.
  - apply pin_fix.
  - destruct (A eq_refl) as (A1 & A2 & A3).
    destruct lo0 as [a|]; [|now elim A1]. destruct hi0 as [b|]; [|now elim A2].
    intros s I H. pose proof (pin_defined s H) as D.
    split; [apply (linstep_good p s s _ _ _ I (track_refl _ _) D)|].
    destruct (linstep_total p a b n s I D) as [E|[s' E]]; [lia|rewrite E; exact H|].
    rewrite E. cbn. eapply linstep_pin; eauto. apply H.
  - destruct (A eq_refl) as (A1 & A2 & A3).
    destruct lo0 as [a|]; [|now elim A1]. destruct hi0 as [b|]; [|now elim A2].
    intros s I H. pose proof (pin_defined s H) as D.
    split; [apply (logstep_good p s s _ _ _ I (track_refl _ _) D)|].
    assert (Z0 : (a = 0 \/ b = 0) \/ (a <> 0 /\ b <> 0)).
    { destruct (Req_dec a 0); auto. destruct (Req_dec b 0); auto. }
    destruct Z0 as [Z0|[Za Zb]].
    + unfold logstep, bind, hnd.
      destruct (check_end_cases (p_bnd (ps s p)) (Some a) s) as [->| ->]; [|exact H].
      destruct (check_end_cases (p_bnd (ps s p)) (Some b) s) as [->| ->]; [|exact H].
      assert (M0 : leb numR (mul numR a b) (ofZ numR 0) = true).
      { cbn. apply Rleb_spec. destruct Z0 as [-> | ->]; lra. }
      rewrite M0. exact H.
    + destruct (logstep_total p a b n s I D) as [[e E]|[s' E]].
      * cbn. now apply Reqb_false.
      * cbn. now apply Reqb_false.
      * rewrite E. exact H.
      * rewrite E. cbn. eapply logstep_pin; eauto. apply H.
  - apply pin_next.
  - apply pin_prev.
  - apply pin_first.
  - apply pin_last.
  - destruct rng; [congruence|]. apply pin_vary.
  - apply pin_us.
  - intros s I H.
    split; [apply add_listener_good; auto; now apply pin_defined|].
    unfold add_listener, bind, hnd, put, modify.
    destruct (existsb _ _); [exact H|]. cbn. rewrite upd_same.
    destruct H as [A1 B1 C1 D1]. constructor; auto. intros St.
    destruct (D1 St) as (f & n & L & Hf). exists f, n. split; [|exact Hf].
    destruct L. constructor; auto.
  - intros s I L. now split.
Qed.

Lemma pin_run : forall l s, Forall (keeps_range p) l -> Inv s -> P (ps s p) ->
  Inv (run dflt l s) /\ P (ps (run dflt l s) p).
Proof.
  apply (keeps_run p P).
  - intros h H St. now apply pin_rewind.
  - apply pin_op.
  - apply pin_next.
  - apply pin_prev.
  - apply pin_sv.
  - apply pin_us.
  - apply pin_sp.
Qed.
End Pin.

(** ** Operations that give p a value *)
Lemma fix_gives : forall (s s' : state) p v lo hi, Inv s ->
  fix_ p (Some v) s = (s', Ok tt) -> p_bnd (ps s' p) = Some ((lo, hi) : numR * numR) ->
  pin lo hi (ps s' p).
Proof.
  intros s s' p v lo hi I E Hb.
  assert (G : ps s' p = fixed_handler (Some v) (ps s p)
    /\ match p_bnd (ps s p) with Some b => within v b | None => true end = true).
  { unfold fix_, bind at 1, hnd in E.
    assert (Hset : forall t, (set_value_ p v;;; set_status_ p Fixed) s = (t, Ok tt) ->
       ps t p = fixed_handler (Some v) (ps s p)).
    { intros t Et. unfold bind in Et. rewrite set_value__eq in Et.
      pose proof (setv_handler s s p _ v (handler_refl s p)) as A.
      destruct (setst_exact s _ p _ Fixed I A) as (s2 & E2 & I' & C & P); try discriminate.
      { pose proof (iv_h s I p) as [a b c d e f]. constructor; cbn; auto; congruence. }
      rewrite E2 in Et. injection Et as <-. exact P. }
    destruct (p_bnd (ps s p)) as [b|].
    - destruct (within v b) eqn:W; [|discriminate]. split; [now apply Hset|reflexivity].
    - split; [now apply Hset|reflexivity]. }
  destruct G as [Ep W]. rewrite Ep in Hb |- *. cbn in Hb. rewrite Hb in W.
  constructor; cbn; auto; try discriminate. exists v. split; auto. now apply within_R.
Qed.

Lemma gives_pin : forall dflt (s s' : state) p o (lo hi : R), Inv s -> gives_value p o ->
  run_op dflt o s = (s', Ok tt) -> p_bnd (ps s' p) = Some ((lo, hi) : numR * numR) ->
  pin lo hi (ps s' p).
Proof.
  intros dflt s s' p o lo hi I G E Hb.
  assert (V : forall m : M numR unit,
     (access dflt p;;; m) s = (s', Ok tt) ->
     exists s1, Inv s1 /\ defined s1 p /\ m s1 = (s', Ok tt)).
  { intros m H. destruct (access_good p s dflt s I (track_refl _ _)) as [I1 _].
    pose proof (access_ok_defined p dflt s) as HD.
    unfold bind in H. destruct (access dflt p s) as [s1 [[]|e]]; [|discriminate].
    exists s1. auto. }
  destruct o; cbn in G; try contradiction; cbn [run_op] in E.
  - destruct o; [subst|contradiction]. eapply fix_gives; eauto.
  - subst. apply V in E as (s1 & I1 & D1 & E).
    unfold set_value, bind, hnd in E.
    destruct (status_eqb_spec (p_status (ps s1 p)) Varying) as [Es|]; [|discriminate].
    destruct (p_bnd (ps s1 p)) as [b|] eqn:Eb.
    + destruct (within v b) eqn:W; [|discriminate]. rewrite set_value__eq in E.
      injection E as <-. cbn in Hb |- *. rewrite upd_same in Hb |- *. cbn in Hb.
      assert (b = (lo, hi)) as -> by congruence.
      constructor; cbn; auto; try congruence. exists v. split; auto. now apply within_R.
    + rewrite set_value__eq in E.
      injection E as <-. cbn in Hb. rewrite upd_same in Hb. cbn in Hb. congruence.
  - destruct o as [v|]; [subst|contradiction]. apply V in E as (s1 & I1 & D1 & E).
    eapply fix_gives; eauto.
  - destruct G as [-> Hn]. apply V in E as (s1 & I1 & D1 & E).
    destruct (linstep_ok s1 s' p _ _ n I1 D1 E) as (a & b & -> & -> & _ & _ & _ & SS).
    eapply linstep_pin; eauto. rewrite (sst_p _ _ _ _ SS) in Hb. exact Hb.
  - destruct G as [-> Hn]. apply V in E as (s1 & I1 & D1 & E).
    destruct (logstep_ok s1 s' p _ _ n I1 D1 E)
      as (a & b & l & u & -> & -> & _ & _ & _ & _ & _ & _ & SS).
    eapply logstep_pin; eauto. rewrite (sst_p _ _ _ _ SS) in Hb. exact Hb.
  - destruct start as [v|]; [subst|contradiction]. apply V in E as (s1 & I1 & D1 & E).
    (* reduce to the case without range *)
    assert (K : exists s2 b, Inv s2 /\ defined s2 p /\ p_bnd (ps s2 p) = Some b
               /\ vary p (Some v) delta None s2 = (s', Ok tt)
               /\ p_delta (ps s2 p) = p_delta (ps s1 p)).
    { destruct rng as [[x y]|].
      - exists (upd_p p (with_bnd (vmin x y, vmax x y)) s1), (vmin x y, vmax x y).
        split; [apply (range_good p s1 s1 x y I1 (track_refl _ _) D1)|].
        split; [unfold defined; cbn; rewrite upd_same; exact D1|].
        split; [cbn; now rewrite upd_same|]. split; [|cbn; now rewrite upd_same].
        rewrite <- E. unfold vary, bind at 1, hnd. cbn [upd_p ps]. rewrite upd_same.
        unfold bind at 4, hnd. reflexivity.
      - destruct (p_bnd (ps s1 p)) as [b|] eqn:Eb.
        + exists s1, b. auto.
        + exfalso. unfold vary, bind, hnd in E. rewrite Eb in E. discriminate. }
    destruct K as (s2 & b & I2 & D2 & Eb & E2 & _).
    assert (Hd : delta = None -> p_delta (ps s2 p) <> None).
    { intros -> Hn. unfold vary, bind, hnd in E2. rewrite Eb, Hn in E2. discriminate. }
    destruct (vary_exact p (Some v) delta s2 b I2 D2 Eb Hd) as (s3 & s4 & I' & A & C & Ep & E4).
    rewrite E4 in E2. destruct (within v b) eqn:W; [|discriminate]. injection E2 as <-.
    cbn in Hb |- *. rewrite upd_same, Ep in *. cbn in Hb.
    assert (b = (lo, hi)) as ->. { destruct delta; cbn in Hb; congruence. }
    constructor; cbn; auto; try discriminate. exists v. split; auto. now apply within_R.
Qed.

(** ** The unbounded transform *)

Lemma of_unbounded_inside : forall lo hi u, lo < hi -> lo < of_unbounded lo hi u < hi.
Proof.
  intros lo hi u H. unfold of_unbounded. pose proof (exp_pos u) as E. set (e := exp u) in *.
  assert (0 < 1 + e) by lra.
  split; apply Rmult_lt_reg_r with (1 + e); auto; unfold Rdiv;
    rewrite Rmult_assoc, Rinv_l, Rmult_1_r by lra; nra.
Qed.
Lemma to_of_unbounded : forall lo hi u, lo < hi ->
  to_unbounded lo hi (of_unbounded lo hi u) = u.
Proof.
  intros lo hi u H. unfold to_unbounded, of_unbounded. pose proof (exp_pos u) as E.
  replace ((lo + hi * exp u) / (1 + exp u) - lo) with ((hi - lo) * exp u * / (1 + exp u))
    by (field; lra).
  replace (hi - (lo + hi * exp u) / (1 + exp u)) with ((hi - lo) * / (1 + exp u))
    by (field; lra).
  assert (0 < / (1 + exp u)) by (apply Rinv_0_lt_compat; lra).
  rewrite !ln_mult, ln_exp; try lra; try (apply Rmult_lt_0_compat; lra).
Qed.
Lemma of_to_unbounded : forall lo hi v, lo < v < hi ->
  of_unbounded lo hi (to_unbounded lo hi v) = v.
Proof.
  intros lo hi v H. unfold to_unbounded, of_unbounded.

  assert (E : exp (ln (v - lo) - ln (hi - v)) = (v - lo) / (hi - v)).
  { change (ln (v - lo) - ln (hi - v)) with (ln (v - lo) + - ln (hi - v)).
    rewrite exp_plus, exp_Ropp, !exp_ln by lra. reflexivity. }
  rewrite E. field. lra.
Qed.
Lemma of_unbounded_increasing : forall lo hi u w, lo < hi -> u < w ->
  of_unbounded lo hi u < of_unbounded lo hi w.
Proof.
  intros lo hi u w H Hu. unfold of_unbounded.
  pose proof (exp_pos u). pose proof (exp_pos w). pose proof (exp_increasing _ _ Hu) as E.
  set (a := exp u) in *. set (b := exp w) in *.
  apply Rmult_lt_reg_r with (1 + a); [lra|]. apply Rmult_lt_reg_r with (1 + b); [lra|].
  replace ((lo + hi * a) / (1 + a) * (1 + a) * (1 + b)) with ((lo + hi * a) * (1 + b)) by (field; lra).
  replace ((lo + hi * b) / (1 + b) * (1 + a) * (1 + b)) with ((lo + hi * b) * (1 + a)) by (field; lra).
  nra.
Qed.

Lemma uset_exact : forall (s : state) p (lo hi u : R),
  p_status (ps s p) = Varying -> p_bnd (ps s p) = Some ((lo, hi) : numR * numR) ->
  unbounded_set p (u : numR) s =
   (log_ev (value_evs (ps s p) p (of_unbounded lo hi u : numR))
      (upd_p p (with_value (of_unbounded lo hi u : numR)) s), Ok tt).
Proof.
  intros s p lo hi u Hs Hb. unfold unbounded_set, bind, hnd. rewrite Hs, Hb.
  cbn [status_eqb bad numR]. rewrite set_value__eq. reflexivity.
Qed.
Lemma uget_exact : forall (s : state) p (lo hi v : R),
  p_status (ps s p) = Varying -> p_bnd (ps s p) = Some ((lo, hi) : numR * numR) ->
  p_value (ps s p) = Some (v : numR) ->
  unbounded_get p s = (s, Ok (to_unbounded lo hi v : numR)).
Proof.
  intros s p lo hi v Hs Hb Hv. unfold unbounded_get, bind, hnd. rewrite Hs, Hb, Hv. reflexivity.
Qed.
