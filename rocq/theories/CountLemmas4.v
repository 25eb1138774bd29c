(** Bounds, errors, derivative and offset of the series. *)

From Coq Require Import ZArith List Bool Arith Reals Lra Lia Psatz.
From Verif Require Import Exn PieModel Instances CountModel CountSpec CountLemmas CountLemmas2 CountLemmas3.
Import ListNotations.
Open Scope R_scope.

Lemma lterm_zero : forall n_on t_on n_off t_off k,
  lterm n_on t_on n_off t_off 0 k = if Nat.eqb k 0 then INR (fact (n_on + n_off)) / INR (fact n_on) else 0.
Proof.
  intros. unfold lterm. rewrite !Rmult_0_l, Ropp_0, exp_0. destruct k as [|k]; cbn [Nat.eqb].
  - rewrite !Nat.sub_0_r. cbn [pow fact]. pose proof (fact_pos n_on). cbn [INR]. field. lra.
  - rewrite pow_ne_zero by lia. unfold Rdiv. ring.
Qed.
Lemma lterm_nonneg : forall n_on t_on n_off t_off s k, 0 <= s -> 0 < t_on -> 0 < t_off -> 0 <= lterm n_on t_on n_off t_off s k.
Proof.
  intros n_on t_on n_off t_off s k Hs Hon Hoff. destruct Hs as [Hs|<-].
  - now apply Rlt_le, lterm_pos.
  - rewrite lterm_zero. destruct (Nat.eqb k 0); [|lra]. apply Rlt_le, Rdiv_lt_0_compat; apply fact_pos.
Qed.
Lemma zero_case : forall G n_on t_on n_off t_off offset cut delta, log_fact G delta ->
  exists v, slmlike G 0 n_on t_on n_off t_off offset cut = Slm v 1
   /\ Rabs (v + offset - ln (INR (fact (n_on + n_off)) / INR (fact n_on))) <= 2 * delta.
Proof.
  intros G n_on t_on n_off t_off offset cut delta HG. unfold slmlike. rewrite (proj2 (Reqb_spec 0 0)) by reflexivity.
  eexists. split; [reflexivity|]. rewrite <- plus_INR. pose proof (HG (n_on + n_off)%nat) as A. pose proof (HG n_on) as B.
  unfold Rdiv. rewrite ln_mult, ln_Rinv by (try apply Rinv_0_lt_compat; apply fact_pos).
  apply abs_iff in A, B. apply abs_iff. lra.
Qed.
Lemma delta_nonneg : forall G delta, log_fact G delta -> 0 <= delta.
Proof. intros G delta H. pose proof (H 0%nat). pose proof (Rabs_pos (G (INR 0 + 1) - ln (INR (fact 0)))). lra. Qed.

Lemma series_block : forall G delta s n_on t_on n_off t_off offset cut v nt,
  log_fact G delta -> 0 <= s -> 0 < t_on -> 0 < t_off -> 0 <= cut ->
  slmlike G s n_on t_on n_off t_off offset cut = Slm v nt ->
  let T := lterm n_on t_on n_off t_off s in
  exists a b m, (a <= m <= b)%nat /\ (b <= n_on)%nat /\ nt = (b - a + 1)%nat
    /\ Rabs (v + offset - ln (sum_over a nt T)) <= 3 * delta
    /\ (forall k, (k <= n_on)%nat -> T k <= T m)
    /\ (forall k, (k < a \/ b < k <= n_on)%nat -> T k <= cut * T m)
    /\ (forall k, (a < k < b)%nat -> k <> m -> cut * T m < T k)
    /\ (0 < s -> ((0 < a)%nat -> (a < m)%nat /\ T a <= cut * T m) /\ ((b < n_on)%nat -> (m < b)%nat /\ T b <= cut * T m)).
Proof.
  intros G delta s n_on t_on n_off t_off offset cut v nt HG Hs Hon Hoff Hc E T. pose proof (delta_nonneg _ _ HG) as Hd.
  destruct Hs as [Hs|<-].
  - destruct (series_core G s n_on t_on n_off t_off offset cut Hs Hon Hoff) as (km & L & Hk & HL & Hu & Hdn & HR).
    specialize (HL delta HG). set (stt := s * (t_on + t_off)) in *. set (w := ww n_on n_off stt) in *.
    assert (Wp : forall i, 0 < w i) by (intros i; apply ww_pos, Rmult_lt_0_compat; lra).
    destruct (Rltb L (-700) || Rltb 700 L); [destruct HR as [HR _]; congruence|].
    destruct HR as (a & b & Hab & Hb & E1 & _ & H1 & H2 & H3). rewrite E1 in E. remember (S b - a)%nat as n0 eqn:En0. inversion E. subst v nt. clear E. subst n0.
    pose proof (exp_pos (- (s * t_on))) as Ep.
    assert (ET : forall k, T k = exp (- (s * t_on)) * w k) by (intros; apply lterm_ww).
    exists a, b, km. refine (conj Hab (conj Hb (conj _ (conj _ (conj _ (conj _ (conj _ _))))))).
    + lia.
    + rewrite (so_ext _ _ T (fun k => exp (- (s * t_on)) * w k)) by (intros; apply ET). rewrite so_scal.
      assert (0 < sum_over a (S b - a) w) by (apply so_pos; [lia|intros; apply Wp]).
      rewrite !ln_mult; try assumption; [|apply Rdiv_lt_0_compat; [apply exp_pos|apply Wp]].
      unfold Rdiv. rewrite ln_mult, ln_Rinv, !ln_exp; try apply Wp; try apply exp_pos; [|apply Rinv_0_lt_compat, Wp].
      apply abs_iff in HL. apply abs_iff. lra.
    + intros k Hk'. rewrite !ET. apply Rmult_le_compat_l; [lra|]. destruct (Nat.le_ge_cases k km); [apply Hu|apply Hdn]; lia.
    + intros k Hk'. rewrite !ET. replace (cut * (exp (- (s * t_on)) * w km)) with (exp (- (s * t_on)) * (cut * w km)) by ring.
      apply Rmult_le_compat_l; [lra|]. destruct Hk' as [K|K].
      * destruct (H1 ltac:(lia)). pose proof (Hu k a ltac:(lia)). lra.
      * destruct (H2 ltac:(lia)). pose proof (Hdn b k ltac:(lia) ltac:(lia)). lra.
    + intros k K N. rewrite !ET. replace (cut * (exp (- (s * t_on)) * w km)) with (exp (- (s * t_on)) * (cut * w km)) by ring.
      apply Rmult_lt_compat_l; [lra|]. now apply H3.
    + intros _. rewrite !ET. replace (cut * (exp (- (s * t_on)) * w km)) with (exp (- (s * t_on)) * (cut * w km)) by ring.
      split; intros K; [destruct (H1 K) as [K1 K2]|destruct (H2 K) as [K1 K2]];
        (split; [exact K1|apply Rmult_le_compat_l; [lra|exact K2]]).
  - destruct (zero_case G n_on t_on n_off t_off offset cut delta HG) as (v' & E' & HV). rewrite E' in E. inversion E. subst v nt.
    assert (P : 0 < INR (fact (n_on + n_off)) / INR (fact n_on)) by (apply Rdiv_lt_0_compat; apply fact_pos).
    exists 0%nat, 0%nat, 0%nat. refine (conj _ (conj _ (conj _ (conj _ (conj _ (conj _ (conj _ _))))))); try lia; try lra.
    + rewrite so_front, so_0, Rplus_0_r. unfold T. rewrite lterm_zero. cbn [Nat.eqb].
      apply abs_iff in HV. apply abs_iff. lra.
    + intros k _. unfold T. rewrite !lterm_zero. cbn [Nat.eqb]. destruct (Nat.eqb k 0); lra.
    + intros k K. unfold T. rewrite !lterm_zero. cbn [Nat.eqb]. destruct (Nat.eqb_spec k 0); [lia|]. nra.
Qed.

Lemma exp_le : forall a b, a <= b -> exp a <= exp b.
Proof. intros a b [H| ->]; [now apply Rlt_le, exp_increasing|lra]. Qed.

Lemma series_value : forall G delta s n_on t_on n_off t_off offset cut v nt,
  log_fact G delta -> 0 <= s -> 0 < t_on -> 0 < t_off -> 0 <= cut ->
  slmlike G s n_on t_on n_off t_off offset cut = Slm v nt ->
  let L := likelihood n_on t_on n_off t_off s in
  (nt <= n_on + 1)%nat /\ exp (v + offset) <= exp (3 * delta) * L
  /\ L - exp (3 * delta) * exp (v + offset) <= INR n_on * cut * L.
Proof.
  intros G delta s n_on t_on n_off t_off offset cut v nt HG Hs Hon Hoff Hc E L.
  destruct (series_block G delta s n_on t_on n_off t_off offset cut v nt HG Hs Hon Hoff Hc E)
    as (a & b & m & Hm & Hb & Hn & HV & Hmax & Hout & _).
  set (T := lterm n_on t_on n_off t_off s) in *. assert (T0 : forall k, 0 <= T k) by (intros; now apply lterm_nonneg).
  assert (EL : L = sum_over 0 a T + sum_over a nt T + sum_over (S b) (n_on - b) T).
  { unfold L, likelihood. fold T. replace (S n_on) with (a + (nt + (n_on - b)))%nat by lia.
    rewrite !so_app. replace (0 + a + nt)%nat with (S b) by lia. cbn [Nat.add]. ring. }
  assert (N1 : 0 <= sum_over 0 a T) by now apply so_nonneg. assert (N2 : 0 <= sum_over (S b) (n_on - b) T) by now apply so_nonneg.
  assert (Tm : T m <= sum_over a nt T).
  { replace nt with (m - a + S (b - m))%nat by lia. rewrite so_app, so_front. replace (a + (m - a))%nat with m by lia.
    pose proof (so_nonneg (m - a) a T ltac:(auto)). pose proof (so_nonneg (b - m) (S m) T ltac:(auto)). lra. }
  assert (B : 0 < sum_over a nt T).
  { destruct Hs as [Hs|<-]; [apply so_pos; [lia|intros; now apply lterm_pos]|].
    apply Rlt_le_trans with (T m); [|exact Tm]. apply Rlt_le_trans with (T 0%nat); [|apply Hmax; lia].
    unfold T. rewrite lterm_zero. apply Rdiv_lt_0_compat; apply fact_pos. }
  apply abs_iff in HV.
  assert (V1 : exp (v + offset) <= exp (3 * delta) * sum_over a nt T).
  { rewrite <- (exp_ln (sum_over a nt T)) at 1 by exact B. rewrite <- exp_plus. apply exp_le. lra. }
  assert (V2 : sum_over a nt T <= exp (3 * delta) * exp (v + offset)).
  { rewrite <- (exp_ln (sum_over a nt T)) at 1 by exact B. rewrite <- exp_plus. apply exp_le. lra. }
  refine (conj _ (conj _ _)).
  - lia.
  - apply Rle_trans with (1 := V1). apply Rmult_le_compat_l; [apply Rlt_le, exp_pos|lra].
  - assert (O1 : sum_over 0 a T <= INR a * (cut * T m)).
    { rewrite <- (so_const a 0). apply so_le. intros. apply Hout. lia. }
    assert (O2 : sum_over (S b) (n_on - b) T <= INR (n_on - b) * (cut * T m)).
    { rewrite <- (so_const (n_on - b) (S b)). apply so_le. intros. apply Hout. lia. }
    assert (O3 : INR a + INR (n_on - b) <= INR n_on) by (rewrite <- plus_INR; apply le_INR; lia).
    assert (O4 : cut * T m <= cut * L) by (apply Rmult_le_compat_l; lra).
    assert (0 <= cut * T m) by (now apply Rmult_le_pos).
    assert ((INR a + INR (n_on - b)) * (cut * T m) <= INR n_on * (cut * L)).
    { apply Rmult_le_compat; try assumption. apply Rplus_le_le_0_compat; apply pos_INR. }
    rewrite Rmult_assoc. lra.
Qed.

Lemma series_full : forall G delta s n_on t_on n_off t_off offset v nt,
  log_fact G delta -> 0 < s -> 0 < t_on -> 0 < t_off ->
  slmlike G s n_on t_on n_off t_off offset 0 = Slm v nt ->
  nt = S n_on /\ Rabs (v + offset - ln (likelihood n_on t_on n_off t_off s)) <= 3 * delta.
Proof.
  intros G delta s n_on t_on n_off t_off offset v nt HG Hs Hon Hoff E.
  destruct (series_block G delta s n_on t_on n_off t_off offset 0 v nt HG ltac:(lra) Hon Hoff ltac:(lra) E)
    as (a & b & m & Hm & Hb & Hn & HV & _ & Hout & _).
  assert (a = 0)%nat.
  { destruct a; [reflexivity|]. pose proof (Hout 0%nat ltac:(lia)).
    pose proof (lterm_pos n_on t_on n_off t_off s 0 Hs Hon Hoff). lra. }
  assert (b = n_on)%nat.
  { destruct (Nat.eq_dec b n_on); [assumption|]. pose proof (Hout n_on ltac:(lia)).
    pose proof (lterm_pos n_on t_on n_off t_off s n_on Hs Hon Hoff). lra. }
  subst a b. assert (nt = S n_on) as -> by lia. split; [reflexivity|exact HV].
Qed.

Lemma series_error : forall G delta s n_on t_on n_off t_off offset cut,
  log_fact G delta -> 0 <= s -> 0 < t_on -> 0 < t_off -> 0 <= cut ->
  slmlike G s n_on t_on n_off t_off offset cut = Ierr ->
  exists m, (m <= n_on)%nat /\ (forall k, (k <= n_on)%nat -> lterm n_on t_on n_off t_off s k <= lterm n_on t_on n_off t_off s m)
    /\ 700 - 3 * delta < Rabs (ln (lterm n_on t_on n_off t_off s m) - offset).
Proof.
  intros G delta s n_on t_on n_off t_off offset cut HG Hs Hon Hoff Hc E. pose proof (delta_nonneg _ _ HG) as Hd.
  destruct Hs as [Hs|<-].
  - destruct (series_core G s n_on t_on n_off t_off offset cut Hs Hon Hoff) as (km & L & Hk & HL & Hu & Hdn & HR).
    specialize (HL delta HG). set (stt := s * (t_on + t_off)) in *. set (w := ww n_on n_off stt) in *.
    assert (Wp : forall i, 0 < w i) by (intros i; apply ww_pos, Rmult_lt_0_compat; lra).
    destruct (Rltb L (-700) || Rltb 700 L) eqn:RL;
      [|destruct HR as (a & b & _ & _ & E1 & _); rewrite E1 in E; discriminate].
    assert (ET : forall k, lterm n_on t_on n_off t_off s k = exp (- (s * t_on)) * w k) by (intros; apply lterm_ww).
    exists km. refine (conj Hk (conj _ _)).
    + intros k Hk'. rewrite !ET. apply Rmult_le_compat_l; [apply Rlt_le, exp_pos|].
      destruct (Nat.le_ge_cases k km); [apply Hu|apply Hdn]; lia.
    + rewrite ET, ln_mult, ln_exp by (try apply exp_pos; apply Wp). apply abs_iff in HL.
      apply orb_prop in RL. destruct RL as [RL|RL]; apply Rltb_spec in RL.
      * pose proof (Rle_abs (- (- (s * t_on) + ln (w km) - offset))) as K. rewrite Rabs_Ropp in K. lra.
      * pose proof (Rle_abs (- (s * t_on) + ln (w km) - offset)) as K. lra.
  - destruct (zero_case G n_on t_on n_off t_off offset cut delta HG) as (v' & E' & _). rewrite E' in E. discriminate.
Qed.

(** ** The derivative *)
Lemma so_derivable : forall n a (f f' : nat -> R -> R) x, (forall i, derivable_pt_lim (f i) x (f' i x)) ->
  derivable_pt_lim (fun y => sum_over a n (fun i => f i y)) x (sum_over a n (fun i => f' i x)).
Proof.
  induction n as [|n IH]; intros a f f' x H.
  - apply (derivable_pt_lim_const 0).
  - apply (derivable_pt_lim_plus (f a) (fun y => sum_over (S a) n (fun i => f i y))); [apply H|now apply IH].
Qed.

(** The derivative of a term, without dividing by s. *)
Definition dterm (n_on : nat) (t_on : R) (n_off : nat) (t_off : R) (k : nat) (s : R) : R :=
  exp (- (s * t_on)) * (INR k * (s * (t_on + t_off)) ^ pred k * (t_on + t_off) - t_on * (s * (t_on + t_off)) ^ k)
    * INR (fact (n_on + n_off - k)) / (INR (fact (n_on - k)) * INR (fact k)).
Lemma lin_derivable : forall c s, derivable_pt_lim (fun x => x * c) s c.
Proof.
  intros c s. pose proof (derivable_pt_lim_mult id (fun _ => c) s 1 0 (derivable_pt_lim_id s) (derivable_pt_lim_const c s)) as D.
  cbv beta in D. replace (1 * c + id s * 0) with c in D by ring. exact D.
Qed.
Lemma dterm_derivable : forall n_on t_on n_off t_off k s,
  derivable_pt_lim (fun x => lterm n_on t_on n_off t_off x k) s (dterm n_on t_on n_off t_off k s).
Proof.
  intros n_on t_on n_off t_off k s. unfold lterm.
  set (c := INR (fact (n_on + n_off - k)) / (INR (fact (n_on - k)) * INR (fact k))).
  assert (D1 : derivable_pt_lim (fun x => exp (- (x * t_on))) s (exp (- (s * t_on)) * - (1 * t_on))).
  { apply (derivable_pt_lim_comp (fun x => - (x * t_on)) exp); [|apply derivable_pt_lim_exp].
    apply (derivable_pt_lim_opp (fun x => x * t_on)).
    rewrite Rmult_1_l. apply lin_derivable. }
  assert (D2 : derivable_pt_lim (fun x => (x * (t_on + t_off)) ^ k) s (INR k * (s * (t_on + t_off)) ^ pred k * (t_on + t_off))).
  { apply (derivable_pt_lim_comp (fun x => x * (t_on + t_off)) (fun y => y ^ k)); [|apply derivable_pt_lim_pow].
    apply lin_derivable. }
  pose proof (derivable_pt_lim_mult _ _ s _ _ D1 D2) as D.
  pose proof (derivable_pt_lim_scal _ c s _ D) as D'.
  replace (dterm n_on t_on n_off t_off k s) with
   (c * (exp (- (s * t_on)) * - (1 * t_on) * (s * (t_on + t_off)) ^ k + exp (- (s * t_on)) * (INR k * (s * (t_on + t_off)) ^ pred k * (t_on + t_off))))
   by (unfold dterm, c, Rdiv; ring).
  intros eps He. destruct (D' eps He) as [d Hd]. exists d. intros h Hh Hl. specialize (Hd h Hh Hl).
  unfold mult_real_fct, mult_fct in Hd.
  match goal with |- Rabs ((?a - ?b) / h - _) < _ => match type of Hd with Rabs ((?a' - ?b') / h - _) < _ =>
    replace a with a' by (unfold c, Rdiv; ring); replace b with b' by (unfold c, Rdiv; ring) end end.
  exact Hd.
Qed.
Lemma dterm_pos : forall n_on t_on n_off t_off k s, 0 < s -> 0 < t_on + t_off ->
  dterm n_on t_on n_off t_off k s = lterm n_on t_on n_off t_off s k * (INR k / s - t_on).
Proof.
  intros n_on t_on n_off t_off k s Hs Ht. unfold dterm, lterm. pose proof (fact_pos (n_on - k)). pose proof (fact_pos k).
  destruct k as [|k]; cbn [pred].
  - cbn [INR pow]. field. lra.
  - cbn [pow]. field. lra.
Qed.

Lemma likelihood_pos : forall n_on t_on n_off t_off s, 0 <= s -> 0 < t_on -> 0 < t_off -> 0 < likelihood n_on t_on n_off t_off s.
Proof.
  intros n_on t_on n_off t_off s Hs Hon Hoff. unfold likelihood. rewrite so_front.
  apply Rplus_lt_le_0_compat; [|apply so_nonneg; intros; now apply lterm_nonneg].
  destruct Hs as [Hs|<-]; [now apply lterm_pos|]. rewrite lterm_zero. apply Rdiv_lt_0_compat; apply fact_pos.
Qed.
Lemma ln_likelihood_derivable : forall n_on t_on n_off t_off s, 0 <= s -> 0 < t_on -> 0 < t_off ->
  derivable_pt_lim (fun x => ln (likelihood n_on t_on n_off t_off x)) s
    (/ likelihood n_on t_on n_off t_off s * sum_over 0 (S n_on) (fun k => dterm n_on t_on n_off t_off k s)).
Proof.
  intros n_on t_on n_off t_off s Hs Hon Hoff.
  apply (derivable_pt_lim_comp (likelihood n_on t_on n_off t_off) ln).
  - apply (so_derivable (S n_on) 0 (fun k x => lterm n_on t_on n_off t_off x k) (dterm n_on t_on n_off t_off)).
    intros k. apply dterm_derivable.
  - apply derivable_pt_lim_ln. now apply likelihood_pos.
Qed.

Lemma derivative_value : forall G s n_on t_on n_off t_off offset v d nt,
  0 < s -> 0 < t_on -> 0 < t_off ->
  slmliked G s n_on t_on n_off t_off offset 0 = Slmd v d nt ->
  slmlike G s n_on t_on n_off t_off offset 0 = Slm v nt
  /\ derivable_pt_lim (fun x => ln (likelihood n_on t_on n_off t_off x)) s d.
Proof.
  intros G s n_on t_on n_off t_off offset v d nt Hs Hon Hoff E.
  destruct (series_core G s n_on t_on n_off t_off offset 0 Hs Hon Hoff) as (km & L & Hk & _ & _ & _ & HR).
  set (stt := s * (t_on + t_off)) in *. set (w := ww n_on n_off stt) in *.
  assert (Wp : forall i, 0 < w i) by (intros i; apply ww_pos, Rmult_lt_0_compat; lra).
  destruct (Rltb L (-700) || Rltb 700 L); [destruct HR as [_ HR]; congruence|].
  destruct HR as (a & b & Hab & Hb & E1 & E2 & H1 & H2 & H3). rewrite E2 in E. remember (S b - a)%nat as n0 eqn:En0. inversion E. subst v d nt. clear E. subst n0.
  split; [exact E1|].
  assert (a = 0)%nat. { destruct a; [reflexivity|]. destruct (H1 ltac:(lia)). pose proof (Wp (S a)). lra. }
  assert (b = n_on)%nat. { destruct (Nat.eq_dec b n_on); [assumption|]. destruct (H2 ltac:(lia)). pose proof (Wp b). lra. }
  subst a b. rewrite !Nat.sub_0_r.
  pose proof (ln_likelihood_derivable n_on t_on n_off t_off s ltac:(lra) Hon Hoff) as D.
  match type of D with derivable_pt_lim _ _ ?x => match goal with |- derivable_pt_lim _ _ ?y => replace y with x; [exact D|] end end.
  unfold likelihood. pose proof (exp_pos (- (s * t_on))) as Ep.
  rewrite (so_ext _ _ (lterm n_on t_on n_off t_off s) (fun k => exp (- (s * t_on)) * w k)) by (intros; apply lterm_ww).
  rewrite (so_ext _ _ (fun k => dterm n_on t_on n_off t_off k s) (fun k => exp (- (s * t_on)) * (w k * (INR k / s - t_on))))
    by (intros; rewrite dterm_pos, lterm_ww by lra; fold stt w; ring).
  rewrite !so_scal. assert (0 < sum_over 0 (S n_on) w) by (apply so_pos; [lia|intros; apply Wp]). field. lra.
Qed.

Lemma derivative_zero : forall G n_on t_on n_off t_off offset cut,
  log_fact G 0 -> (1 <= n_on)%nat -> 0 < t_on -> 0 < t_off ->
  exists v d, slmliked G 0 n_on t_on n_off t_off offset cut = Slmd v d 1
  /\ slmlike G 0 n_on t_on n_off t_off offset cut = Slm v 1
  /\ derivable_pt_lim (fun x => ln (likelihood n_on t_on n_off t_off x)) 0 d.
Proof.
  intros G n_on t_on n_off t_off offset cut HG Hn Hon Hoff. unfold slmliked, slmlike.
  rewrite (proj2 (Reqb_spec 0 0)) by reflexivity. eexists _, _. refine (conj eq_refl (conj eq_refl _)).
  pose proof (ln_likelihood_derivable n_on t_on n_off t_off 0 ltac:(lra) Hon Hoff) as D.
  match type of D with derivable_pt_lim _ _ ?x => match goal with |- derivable_pt_lim _ _ ?y => replace y with x; [exact D|] end end.
  assert (GX : forall m, G (INR m + 1) = ln (INR (fact m))).
  { intros m. pose proof (HG m) as A. apply abs_iff in A. lra. }
  rewrite <- plus_INR, GX, GX.
  destruct n_on as [|n]; [lia|].
  replace (INR (S n + n_off) + 1 - 1) with (INR (n + n_off) + 1) by (cbn [Nat.add]; rewrite S_INR; ring).
  replace (INR (S n) + 1 - 1) with (INR n + 1) by (rewrite S_INR; ring). rewrite !GX.
  assert (L0 : likelihood (S n) t_on n_off t_off 0 = INR (fact (S n + n_off)) / INR (fact (S n))).
  { unfold likelihood. rewrite so_front, (so_ext _ _ _ (fun _ => 0)), so_const, lterm_zero; [cbn [Nat.eqb]; ring|].
    intros i Hi. rewrite lterm_zero. destruct i; [lia|reflexivity]. }
  assert (S0 : sum_over 0 (S (S n)) (fun k => dterm (S n) t_on n_off t_off k 0)
     = - t_on * (INR (fact (S n + n_off)) / INR (fact (S n))) + (t_on + t_off) * (INR (fact (n + n_off)) / INR (fact n))).
  { rewrite !so_front, (so_ext _ _ _ (fun _ => 0)), so_const.
    - unfold dterm. rewrite !Rmult_0_l, Ropp_0, exp_0. cbn [pred pow].
      replace (S n + n_off - 0)%nat with (S n + n_off)%nat by lia. replace (S n - 0)%nat with (S n) by lia.
      replace (S n + n_off - 1)%nat with (n + n_off)%nat by lia. replace (S n - 1)%nat with n by lia.
      change (fact 0) with 1%nat. change (fact 1) with 1%nat. change (INR 1) with 1. change (INR 0) with 0.
      pose proof (fact_pos (S n)). pose proof (fact_pos n). field. lra.
    - intros i Hi. unfold dterm. rewrite !Rmult_0_l. destruct i as [|[|i]]; [lia|lia|]. cbn [pred].
      rewrite !pow_ne_zero by lia. unfold Rdiv. ring. }
  rewrite L0, S0. unfold Rminus. rewrite Ropp_plus_distr, !Ropp_involutive.
  replace (ln (1 + t_off / t_on) + ln (INR (fact (n + n_off))) + - ln (INR (fact n)) + - offset +
    (- (ln (INR (fact (S n + n_off))) + - ln (INR (fact (S n)))) + offset)) with
    (ln (1 + t_off / t_on) + (ln (INR (fact (n + n_off))) + (- ln (INR (fact n)) + (- ln (INR (fact (S n + n_off))) + ln (INR (fact (S n))))))) by ring.
  rewrite !exp_plus, !exp_Ropp, !exp_ln by (try apply fact_pos; now apply tfac_pos).
  pose proof (fact_pos (n + n_off)). pose proof (fact_pos n). pose proof (fact_pos (S n + n_off)). pose proof (fact_pos (S n)).
  field. lra.
Qed.

(** ** The offset *)
Lemma largest_nonpos : forall n_on n_off stt, stt <= 0 -> (largest n_on n_off stt <= 0)%Z.
Proof.
  intros n_on n_off stt Hs. unfold largest. cbv zeta.
  set (nn := INR (n_on + n_off)). set (nns := nn + stt - 1). set (disc := nns * nns + 4 * (nn - INR n_on * stt)).
  assert (P0 : 0 <= INR n_on) by apply pos_INR. assert (P1 : 0 <= INR n_off) by apply pos_INR.
  assert (En : nn = INR n_on + INR n_off) by (unfold nn; apply plus_INR).
  assert (D1 : (nns + 2) * (nns + 2) <= disc).
  { unfold disc, nns. pose proof (Rmult_le_pos _ _ P0 (Ropp_0_ge_le_contravar _ (Rle_ge _ _ Hs))). nra. }
  assert (D0 : 0 <= disc) by (pose proof (Rle_0_sqr (nns + 2)) as Q; unfold Rsqr in Q; lra).
  rewrite (proj2 (Rleb_spec 0 disc)) by exact D0.
  assert (Q0 : 0 <= sqrt disc) by apply sqrt_pos. assert (QQ : sqrt disc * sqrt disc = disc) by now apply sqrt_def.
  assert (J : 1/2 * (nns - sqrt disc) + 1 <= 0).
  { destruct (Rle_or_lt (nns + 2) (sqrt disc)); [lra|]. nra. }
  set (y := 1/2 * (nns - sqrt disc) + 1) in *. assert (trunc y <= 0)%Z; [|lia].
  unfold trunc. destruct (Rleb 0 y) eqn:B.
  - apply Rleb_spec in B. pose proof (Int_part_bounds y) as [I1 _]. apply le_IZR. lra.
  - pose proof (Int_part_bounds (- y)) as [I1 I2]. apply Rleb_false in B.
    assert (-1 < IZR (Int_part (- y))) as I3 by lra. apply lt_IZR in I3. lia.
Qed.

Lemma offset_value : forall G delta n_on t_on n_off t_off, log_fact G delta -> 0 < t_on -> 0 < t_off ->
  let s := INR n_on / t_on - INR n_off / t_off in
  let T := lterm n_on t_on n_off t_off in
  (exists m, 0 < s /\ (0 < m <= n_on)%nat /\ (forall k, (k <= n_on)%nat -> T s k <= T s m)
     /\ Rabs (slml_offset G n_on t_on n_off t_off - ln (T s m)) <= 3 * delta)
  \/ ((0 < s -> forall k, (k <= n_on)%nat -> T s k <= T s 0%nat)
      /\ Rabs (slml_offset G n_on t_on n_off t_off - ln (T 0 0%nat)) <= 2 * delta).
Proof.
  intros G delta n_on t_on n_off t_off HG Hon Hoff s T. unfold slml_offset. cbv zeta. fold s.
  set (stt := s * (t_on + t_off)).
  assert (Z0 : Rabs (G (INR n_on + 1 + INR n_off) - G (INR n_on + 1) - ln (T 0 0%nat)) <= 2 * delta).
  { unfold T. rewrite lterm_zero. cbn [Nat.eqb].
    replace (INR n_on + 1 + INR n_off) with (INR (n_on + n_off) + 1) by (rewrite plus_INR; ring).
    pose proof (HG (n_on + n_off)%nat) as A. pose proof (HG n_on) as B.
    unfold Rdiv. rewrite ln_mult, ln_Rinv by (try apply Rinv_0_lt_compat; apply fact_pos).
    apply abs_iff in A, B. apply abs_iff. lra. }
  destruct (Rlt_le_dec 0 s) as [Hs|Hs].
  - assert (Hx : 0 < stt) by (apply Rmult_lt_0_compat; lra).
    destruct (largest_spec n_on n_off stt Hx) as (km & E & Hk & Hu & Hd). rewrite E.
    assert (Mx : forall k, (k <= n_on)%nat -> T s k <= T s km).
    { intros k Hk'. unfold T. rewrite !lterm_ww. fold stt. apply Rmult_le_compat_l; [apply Rlt_le, exp_pos|].
      destruct (Nat.le_ge_cases k km); [apply (w_up n_on n_off stt Hx km Hk Hu)|apply (w_down n_on n_off stt Hx km Hk Hd)]; lia. }
    destruct (Z.leb_spec (Z.of_nat km) 0) as [K|K].
    + assert (km = 0)%nat as -> by lia. right. split; [intros _; exact Mx|exact Z0].
    + left. exists km. refine (conj Hs (conj _ (conj Mx _))); [lia|].
      pose proof (G3 G delta n_on n_off km (INR n_on - INR n_off * t_on / t_off) (ln stt) HG Hk) as A. cbv zeta in A.
      unfold T. rewrite lterm_ww, ln_mult, ln_exp by (try apply exp_pos; now apply ww_pos). fold stt. rewrite ln_ww by exact Hx.
      assert (s * t_on = INR n_on - INR n_off * t_on / t_off) by (unfold s; field; lra).
      apply abs_iff in A. apply abs_iff. lra.
  - right. split; [lra|]. pose proof (largest_nonpos n_on n_off stt) as K.
    assert (stt <= 0) by (unfold stt; nra). rewrite (proj2 (Z.leb_le _ _)) by auto. exact Z0.
Qed.
