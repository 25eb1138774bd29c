(** Sums, the recursion of the signal probabilities, and the series. *)

From Coq Require Import ZArith List Bool Arith Reals Lra Lia Psatz.
From Verif Require Import Exn PieModel Instances CountModel CountSpec.
Import ListNotations.
Open Scope R_scope.

(** ** Sums *)
Lemma so_0 : forall a f, sum_over a 0 f = 0. Proof. reflexivity. Qed.
Lemma so_front : forall a n f, sum_over a (S n) f = f a + sum_over (S a) n f. Proof. reflexivity. Qed.
Lemma so_app : forall m n a f, sum_over a (m + n) f = sum_over a m f + sum_over (a + m) n f.
Proof.
  induction m as [|m IH]; intros n a f.
  - rewrite so_0, Nat.add_0_r. cbn [Nat.add]. ring.
  - cbn [Nat.add]. rewrite !so_front, IH. replace (S a + m)%nat with (a + S m)%nat by lia. ring.
Qed.
Lemma so_end : forall a n f, sum_over a (S n) f = sum_over a n f + f (a + n)%nat.
Proof. intros a n f. replace (S n) with (n + 1)%nat by lia. rewrite so_app, so_front, so_0. ring. Qed.
Lemma so_ext : forall n a f g, (forall i, (a <= i < a + n)%nat -> f i = g i) -> sum_over a n f = sum_over a n g.
Proof.
  induction n as [|n IH]; intros a f g H; [reflexivity|]. rewrite !so_front, (H a) by lia. f_equal.
  apply IH. intros i Hi. apply H. lia.
Qed.
Lemma so_scal : forall n a f c, sum_over a n (fun i => c * f i) = c * sum_over a n f.
Proof. induction n as [|n IH]; intros a f c; [rewrite !so_0; ring|]. rewrite !so_front, IH. ring. Qed.
Lemma so_plus : forall n a f g, sum_over a n (fun i => f i + g i) = sum_over a n f + sum_over a n g.
Proof. induction n as [|n IH]; intros a f g; [rewrite !so_0; ring|]. rewrite !so_front, IH. ring. Qed.
Lemma so_le : forall n a f g, (forall i, (a <= i < a + n)%nat -> f i <= g i) -> sum_over a n f <= sum_over a n g.
Proof.
  induction n as [|n IH]; intros a f g H; [apply Rle_refl|]. rewrite !so_front.
  apply Rplus_le_compat; [apply H; lia|apply IH; intros; apply H; lia].
Qed.
Lemma so_const : forall n a c, sum_over a n (fun _ => c) = INR n * c.
Proof. induction n as [|n IH]; intros a c; [rewrite so_0; cbn; ring|]. rewrite so_front, IH, S_INR. ring. Qed.
Lemma so_nonneg : forall n a f, (forall i, (a <= i < a + n)%nat -> 0 <= f i) -> 0 <= sum_over a n f.
Proof.
  intros n a f H. replace 0 with (sum_over a n (fun _ => 0)) by (rewrite so_const; ring). now apply so_le.
Qed.
Lemma so_pos : forall n a f, (0 < n)%nat -> (forall i, (a <= i < a + n)%nat -> 0 < f i) -> 0 < sum_over a n f.
Proof.
  intros [|n] a f Hn H; [lia|]. rewrite so_front.
  apply Rplus_lt_le_0_compat; [apply H; lia|]. apply so_nonneg. intros i Hi. apply Rlt_le, H. lia.
Qed.
Lemma so_shift : forall n a f, sum_over (S a) n f = sum_over a n (fun i => f (S i)).
Proof. induction n as [|n IH]; intros a f; [reflexivity|]. rewrite !so_front. f_equal. apply IH. Qed.

(** ** The weights x^k (n_on+n_off-k)!/(n_on-k)! *)
Definition vw (n_on n_off : nat) (x : R) (k : nat) : R :=
  x ^ k * INR (fact (n_on + n_off - k)) / INR (fact (n_on - k)).
Lemma fact_pos : forall n, 0 < INR (fact n).
Proof. intros n. apply lt_0_INR, lt_O_fact. Qed.
Lemma vw_pos : forall n_on n_off x k, 0 < x -> 0 < vw n_on n_off x k.
Proof.
  intros. unfold vw. apply Rdiv_lt_0_compat; [|apply fact_pos]. apply Rmult_lt_0_compat; [now apply pow_lt|apply fact_pos].
Qed.
Lemma vw_step : forall n_on n_off x k, (k < n_on)%nat ->
  vw n_on n_off x (S k) * (INR (n_on + n_off) - INR k) = vw n_on n_off x k * (x * (INR n_on - INR k)).
Proof.
  intros n_on n_off x k Hk. unfold vw.
  replace (n_on + n_off - k)%nat with (S (n_on + n_off - S k)) by lia.
  replace (n_on - k)%nat with (S (n_on - S k)) by lia.
  rewrite !fact_simpl, !mult_INR, <- !minus_INR by lia.
  replace (n_on + n_off - k)%nat with (S (n_on + n_off - S k)) by lia.
  replace (n_on - k)%nat with (S (n_on - S k)) by lia.
  pose proof (fact_pos (n_on - S k)). pose proof (lt_0_INR (S (n_on - S k)) ltac:(lia)).
  cbn [pow]. field. lra.
Qed.

(** ** sigctp *)
Section Ctp.
Variables n_on n_off : nat.
Variable tfac : R.
Hypothesis tf : 0 < tfac.
Let n := INR (n_on + n_off).
Let v := vw n_on n_off tfac.

Lemma ctp_down_spec : forall k hi c sum C,
  (k <= hi <= n_on)%nat -> (forall i, (k <= i <= hi)%nat -> c i = C * v i) ->
  sum = C * sum_over k (S hi - k) v ->
  exists c', ctp_down n_on tfac n k c sum = (c', C * sum_over 0 (S hi) v)
    /\ forall i, (i <= hi)%nat -> c' i = C * v i.
Proof.
  induction k as [|k IH]; intros hi c sum C Hk Hc Hs; cbn [ctp_down].
  - exists c. split; [f_equal; rewrite Hs; repeat f_equal; lia|]. intros; apply Hc; lia.
  - assert (E : c (S k) * ((n - INR k) / (INR n_on - INR k) / tfac) = C * v k).
    { rewrite Hc by lia. pose proof (vw_step n_on n_off tfac k ltac:(lia)) as V. fold v n in V.
      assert (0 < INR n_on - INR k) by (rewrite <- minus_INR by lia; apply lt_0_INR; lia).
      replace (C * v (S k) * ((n - INR k) / (INR n_on - INR k) / tfac)) with
        (C * (v (S k) * (n - INR k)) / ((INR n_on - INR k) * tfac)) by (field; lra).
      rewrite V. field. lra. }
    rewrite E. apply IH.
    + lia.
    + intros i Hi. unfold aset. destruct (Nat.eqb_spec i k) as [->|N]; [reflexivity|]. apply Hc. lia.
    + rewrite Hs. replace (S hi - k)%nat with (S (S hi - S k)) by lia. rewrite so_front. ring.
Qed.

Lemma ctp_up_spec : forall count i c sum C,
  (i + count = S n_on)%nat -> (1 <= i)%nat -> (forall j, (j < i)%nat -> c j = C * v j) ->
  sum = C * sum_over 0 i v ->
  exists c', ctp_up n_on tfac n count i c sum = (c', C * sum_over 0 (S n_on) v)
    /\ forall j, (j <= n_on)%nat -> c' j = C * v j.
Proof.
  induction count as [|m IH]; intros i c sum C Hi H1 Hc Hs; cbn [ctp_up].
  - exists c. split; [f_equal; rewrite Hs; repeat f_equal; lia|]. intros; apply Hc; lia.
  - assert (E : c (i - 1)%nat * (tfac * ((INR n_on - INR i + 1) / (n - INR i + 1))) = C * v i).
    { rewrite Hc by lia. destruct i as [|i]; [lia|]. replace (S i - 1)%nat with i by lia.
      pose proof (vw_step n_on n_off tfac i ltac:(lia)) as V. fold v n in V. rewrite S_INR.
      assert (0 < n - INR i) by (unfold n; rewrite <- minus_INR by lia; apply lt_0_INR; lia).
      replace (C * v i * (tfac * ((INR n_on - (INR i + 1) + 1) / (n - (INR i + 1) + 1)))) with
        (C * (v i * (tfac * (INR n_on - INR i))) / (n - INR i)) by (field; lra).
      rewrite <- V. field. lra. }
    rewrite E. apply IH; [lia|lia| |].
    + intros j Hj. unfold aset. destruct (Nat.eqb_spec j i) as [->|N]; [reflexivity|]. apply Hc. lia.
    + rewrite Hs, so_end. cbn [Nat.add]. ring.
Qed.
End Ctp.

Lemma ctp_mode_le : forall n_on t_on n_off t_off, (ctp_mode n_on t_on n_off t_off <= n_on)%nat.
Proof. intros. unfold ctp_mode. lia. Qed.

Lemma tfac_pos : forall t_on t_off, 0 < t_on -> 0 < t_off -> 0 < 1 + t_off / t_on.
Proof. intros. pose proof (Rdiv_lt_0_compat t_off t_on ltac:(lra) ltac:(lra)). lra. Qed.

Lemma sigctp_closed : forall c0 n_on t_on n_off t_off, 0 < t_on -> 0 < t_off ->
  sigctp c0 n_on t_on n_off t_off =
  map (fun i => weight n_on t_on n_off t_off i / sum_over 0 (S n_on) (weight n_on t_on n_off t_off)) (seq 0 (S n_on)).
Proof.
  intros c0 n_on t_on n_off t_off Hon Hoff. unfold sigctp.
  pose proof (tfac_pos _ _ Hon Hoff) as T. set (tf := 1 + t_off / t_on) in *.
  pose proof (ctp_mode_le n_on t_on n_off t_off) as M. set (mode := ctp_mode n_on t_on n_off t_off) in *.
  set (v := vw n_on n_off tf). assert (Vm : 0 < v mode) by now apply vw_pos.
  destruct (ctp_down_spec n_on n_off tf T mode mode (aset c0 mode 1) 1 (/ v mode)) as (c1 & E1 & H1); [lia| | |].
  { intros i Hi. assert (i = mode) as -> by lia. unfold aset. rewrite Nat.eqb_refl. fold v. field. lra. }
  { replace (S mode - mode)%nat with 1%nat by lia. rewrite so_front, so_0. fold v. field. lra. }
  rewrite E1. destruct (ctp_up_spec n_on n_off tf (n_on - mode) (S mode) c1 _ (/ v mode) ltac:(lia) ltac:(lia)
    (fun j Hj => H1 j ltac:(lia)) eq_refl) as (c2 & E2 & H2).
  rewrite E2. apply map_ext_in. intros i Hi. apply in_seq in Hi. rewrite H2 by lia.
  fold v. change (weight n_on t_on n_off t_off) with v.
  assert (0 < sum_over 0 (S n_on) v) by (apply so_pos; [lia|intros; now apply vw_pos]).
  field. lra.
Qed.

Lemma weight_pos : forall n_on t_on n_off t_off i, 0 < t_on -> 0 < t_off -> 0 < weight n_on t_on n_off t_off i.
Proof. intros. apply vw_pos, tfac_pos; assumption. Qed.

Lemma sigctp_facts : forall c0 n_on t_on n_off t_off, 0 < t_on -> 0 < t_off ->
  let p := sigctp c0 n_on t_on n_off t_off in
  let W := sum_over 0 (S n_on) (weight n_on t_on n_off t_off) in
  length p = S n_on /\ Forall (fun x => 0 < x) p /\ sumR p = 1
  /\ forall i, (i <= n_on)%nat -> nth_error p i = Some (weight n_on t_on n_off t_off i / W).
Proof.
  intros c0 n_on t_on n_off t_off Hon Hoff p W. unfold p. rewrite sigctp_closed by assumption. fold W.
  assert (HW : 0 < W) by (apply so_pos; [lia|intros; now apply weight_pos]).
  refine (conj _ (conj _ (conj _ _))).
  - now rewrite map_length, seq_length.
  - apply Forall_forall. intros x Hx. apply in_map_iff in Hx. destruct Hx as (i & <- & _).
    apply Rdiv_lt_0_compat; [now apply weight_pos|exact HW].
  - change (sum_over 0 (S n_on) (fun i => weight n_on t_on n_off t_off i / W) = 1).
    rewrite (so_ext _ _ _ (fun i => / W * weight n_on t_on n_off t_off i)) by (intros; unfold Rdiv; ring).
    rewrite so_scal. fold W. field. lra.
  - intros i Hi. rewrite (map_nth_error _ i _ (d := i)); [reflexivity|].
    rewrite (nth_error_nth' _ 0%nat) by (rewrite seq_length; lia). f_equal. rewrite seq_nth by lia. lia.
Qed.

(** ** The Poisson routine *)
Definition good (s : pois) : Prop := forall j, (j <= p_ntop s)%nat -> p_a s (S j) = INR (fact j).
Lemma pois0_good : forall junk, good (pois0 junk).
Proof. intros junk j Hj. cbn in *. assert (j = 0)%nat as -> by lia. reflexivity. Qed.
Lemma fill_spec : forall count j a, (forall i, (i < j)%nat -> a (S i) = INR (fact i)) -> (1 <= j)%nat ->
  forall i, (i < j + count)%nat -> fill count j a (S i) = INR (fact i).
Proof.
  induction count as [|m IH]; intros j a H Hj i Hi; cbn [fill]; [apply H; lia|].
  apply IH; [|lia|lia]. intros i' Hi'. unfold aset. destruct (Nat.eqb_spec (S i') (S j)) as [E|N].
  - assert (i' = j) as -> by lia. destruct j as [|j]; [lia|]. rewrite (H j) by lia.
    rewrite fact_simpl, mult_INR. reflexivity.
  - apply H. lia.
Qed.
Lemma ppois_good : forall G n dm s, good s -> good (fst (ppois G n dm s)).
Proof.
  intros G n dm s H. unfold ppois. destruct (Reqb dm 0); [exact H|]. destruct (Nat.leb_spec n (p_ntop s)); [exact H|].
  destruct (Nat.leb n 32); [|exact H]. cbn [fst]. intros j Hj. cbn [p_ntop p_a] in *. apply fill_spec; [|lia|lia].
  intros i Hi. apply H. lia.
Qed.
Lemma after_good : forall G calls s, good s -> good (after G calls s).
Proof. induction calls as [|[n a] l IH]; intros s H; cbn [after]; [exact H|]. apply IH, ppois_good, H. Qed.

Lemma after_ntop : forall G calls s, (p_ntop s <= 32)%nat -> (p_ntop (after G calls s) <= 32)%nat.
Proof.
  induction calls as [|[n a] l IH]; intros s H; cbn [after]; [exact H|]. apply IH. unfold ppois.
  destruct (Reqb a 0); [exact H|]. destruct (Nat.leb_spec n (p_ntop s)); [exact H|].
  destruct (Nat.leb_spec n 32); cbn [fst p_ntop]; lia.
Qed.

Lemma ppois_value : forall G n dm s, good s -> (n <= 32)%nat -> snd (ppois G n dm s) = poisson n dm.
Proof.
  intros G n dm s H Hn. unfold ppois, poisson. destruct (Reqb dm 0) eqn:E.
  - apply Reqb_spec in E. subst dm. cbn [snd]. rewrite Ropp_0, exp_0. destruct n as [|n]; cbn [Nat.eqb].
    + cbn. field.
    + rewrite pow_ne_zero by lia. unfold Rdiv. ring.
  - destruct (Nat.leb_spec n (p_ntop s)); cbn [snd]; [now rewrite H|].
    rewrite (proj2 (Nat.leb_le n 32)) by lia. cbn [snd]. rewrite fill_spec with (j := S (p_ntop s)); [reflexivity| |lia|lia].
    intros i Hi. apply H. lia.
Qed.
Lemma ppois_large : forall G n dm s, (p_ntop s <= 32)%nat -> (32 < n)%nat ->
  snd (ppois G n dm s) = if Reqb dm 0 then 0 else exp (INR n * ln dm - dm - G (INR n + 1)).
Proof.
  intros G n dm s H Hn. unfold ppois. destruct (Reqb dm 0).
  - cbn [snd]. destruct n; [lia|reflexivity].
  - rewrite (proj2 (Nat.leb_gt _ _)) by lia. rewrite (proj2 (Nat.leb_gt _ _)) by lia. reflexivity.
Qed.
Lemma poisson_exp : forall n a, 0 < a -> poisson n a = exp (INR n * ln a - a - ln (INR (fact n))).
Proof.
  intros n a Ha. unfold poisson. pose proof (fact_pos n). unfold Rminus.
  rewrite !exp_plus, (exp_Ropp (ln (INR (fact n)))), exp_ln by assumption.
  rewrite <- (Rpower_pow n a Ha). unfold Rpower. reflexivity.
Qed.
