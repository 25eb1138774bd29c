(** Proofs about the steppers and the sums of logs. *)

From Coq Require Import ZArith List Bool Arith Reals Lra Lia Psatz Permutation.
From Verif Require Import Exn PieModel Instances MinModel MinSpec.
Import ListNotations.

(** ** Steppers, in any arithmetic *)
Section Any.
Context {N : num}.

Lemma lin_enum : forall (lo hi delta : N) n c i off,
  lin_enum_loop lo hi delta n i c off = combine (seq i c) (lin_loop lo hi delta n i c off).
Proof.
  intros lo hi delta n c. induction c as [|c IH]; intros i off; [reflexivity|].
  cbn. destruct (Nat.eqb i 0); [|destruct (Nat.eqb i (n - 1))]; cbn; now rewrite IH.
Qed.
Lemma log_enum : forall (lo hi fac : N) n c i cur,
  log_enum_loop lo hi fac n i c cur = combine (seq i c) (log_loop lo hi fac n i c cur).
Proof.
  intros lo hi fac n c. induction c as [|c IH]; intros i cur; [reflexivity|].
  cbn. destruct (Nat.eqb i 0); [|destruct (Nat.eqb i (n - 1))]; cbn; now rewrite IH.
Qed.
Lemma lin_length : forall (lo hi delta : N) n c i off, length (lin_loop lo hi delta n i c off) = c.
Proof.
  intros lo hi delta n c. induction c as [|c IH]; intros i off; [reflexivity|].
  cbn. destruct (Nat.eqb i 0); [|destruct (Nat.eqb i (n - 1))]; cbn; now rewrite IH.
Qed.
Lemma log_length : forall (lo hi fac : N) n c i cur, length (log_loop lo hi fac n i c cur) = c.
Proof.
  intros lo hi fac n c. induction c as [|c IH]; intros i cur; [reflexivity|].
  cbn. destruct (Nat.eqb i 0); [|destruct (Nat.eqb i (n - 1))]; cbn; now rewrite IH.
Qed.
Lemma lin_last : forall (lo hi delta : N) n c i off, (i + S c = n)%nat -> (2 <= n)%nat ->
  nth_error (lin_loop lo hi delta n i (S c) off) c = Some hi.
Proof.
  intros lo hi delta n c. induction c as [|c IH]; intros i off Hn H2.
  - cbn. destruct (Nat.eqb_spec i 0); [lia|]. destruct (Nat.eqb_spec i (n - 1)); [reflexivity|lia].
  - cbn [lin_loop]. destruct (Nat.eqb_spec i 0); [|destruct (Nat.eqb_spec i (n - 1)); [lia|]];
      cbn [nth_error]; apply IH; lia.
Qed.
Lemma log_last : forall (lo hi fac : N) n c i cur, (i + S c = n)%nat -> (2 <= n)%nat ->
  nth_error (log_loop lo hi fac n i (S c) cur) c = Some hi.
Proof.
  intros lo hi delta n c. induction c as [|c IH]; intros i off Hn H2.
  - cbn. destruct (Nat.eqb_spec i 0); [lia|]. destruct (Nat.eqb_spec i (n - 1)); [reflexivity|lia].
  - cbn [log_loop]. destruct (Nat.eqb_spec i 0); [|destruct (Nat.eqb_spec i (n - 1)); [lia|]];
      cbn [nth_error]; apply IH; lia.
Qed.

Lemma lin_any : forall (lo hi : N) n, (2 <= n)%nat ->
  exists l, lin_stepper lo hi n = Ok l /\ length l = n /\ nth_error l 0 = Some lo
    /\ nth_error l (n - 1) = Some hi /\ lin_enum_stepper lo hi n = Ok (combine (seq 0 n) l).
Proof.
  intros lo hi n H2. unfold lin_stepper, lin_enum_stepper. destruct (Nat.eqb_spec n 1); [lia|].
  eexists. split; [reflexivity|]. split; [apply lin_length|].
  split; [destruct n; [lia|reflexivity]|]. split; [|now rewrite lin_enum].
  destruct n as [|n]; [lia|]. replace (S n - 1)%nat with n by lia. apply lin_last; lia.
Qed.
Lemma log_any : forall (lo hi : N) n, (2 <= n)%nat -> eqb N lo (ofZ N 0) = false ->
  exists l, log_stepper lo hi n = Ok l /\ length l = n /\ nth_error l 0 = Some lo
    /\ nth_error l (n - 1) = Some hi /\ log_enum_stepper lo hi n = Ok (combine (seq 0 n) l).
Proof.
  intros lo hi n H2 Hl. unfold log_stepper, log_enum_stepper. rewrite Hl.
  eexists. split; [reflexivity|]. split; [apply log_length|].
  split; [destruct n; [lia|reflexivity]|]. split; [|now rewrite log_enum].
  destruct n as [|n]; [lia|]. replace (S n - 1)%nat with n by lia. apply log_last; lia.
Qed.
End Any.

Open Scope R_scope.

(** ** Steppers, real numbers *)
Lemma lin_nth : forall (lo hi delta : R) n c i (off : R) k, (i + c = n)%nat -> (2 <= n)%nat -> (k < c)%nat ->
  hi = lo + INR (n - 1) * delta -> off = INR (i - 1) * delta ->
  nth_error (@lin_loop numR lo hi delta n i c off) k = Some (lo + INR (i + k) * delta).
Proof.
  intros lo hi delta n c. induction c as [|c IH]; intros i off k Hn H2 Hk Hh Ho; [lia|].
  cbn [lin_loop]. destruct (Nat.eqb_spec i 0) as [->|Hi].
  - destruct k as [|k]; cbn [nth_error].
    + cbn. apply (f_equal (@Some R)). ring.
    + rewrite IH; try lia; [now replace (1 + k)%nat with (0 + S k)%nat by lia|exact Hh|].
      cbn. ring.
  - destruct (Nat.eqb_spec i (n - 1)) as [->|Hj].
    + assert (k = 0%nat) by lia. subst k. cbn [nth_error]. rewrite Nat.add_0_r, Hh. reflexivity.
    + assert (Eo : off + delta = INR i * delta).
      { rewrite Ho, minus_INR by lia. cbn. ring. }
      destruct k as [|k]; cbn [nth_error].
      * rewrite Nat.add_0_r. apply (f_equal (@Some R)). cbn. now rewrite Eo.
      * rewrite IH; try lia; [now replace (S i + k)%nat with (i + S k)%nat by lia|exact Hh|].
        cbn. replace (i - 0)%nat with i by lia. exact Eo.
Qed.

Lemma lin_real : forall (lo hi : R) n, (2 <= n)%nat -> forall l, @lin_stepper numR lo hi n = Ok l ->
  forall k, (k < n)%nat -> nth_error l k = Some (lo + INR k * (hi - lo) / INR (n - 1)).
Proof.
  intros lo hi n H2 l E k Hk. unfold lin_stepper in E. destruct (Nat.eqb_spec n 1); [lia|].
  injection E as <-.
  assert (En : IZR (Z.of_nat n) - 1 = INR (n - 1)).
  { rewrite <- INR_IZR_INZ, minus_INR by lia. reflexivity. }
  assert (Hp : 0 < INR (n - 1)) by (apply lt_0_INR; lia).
  rewrite lin_nth; try lia.
  - apply (f_equal (@Some R)). cbn. rewrite En. cbn. unfold Rdiv. ring.
  - cbn. rewrite En. field. lra.
  - cbn. ring.
Qed.

Lemma log_nth : forall (lo hi fac : R) n c i (cur : R) k, (i + c = n)%nat -> (2 <= n)%nat -> (k < c)%nat ->
  hi = lo * fac ^ (n - 1) -> cur = lo * fac ^ (i - 1) ->
  nth_error (@log_loop numR lo hi fac n i c cur) k = Some (lo * fac ^ (i + k)).
Proof.
  intros lo hi fac n c. induction c as [|c IH]; intros i cur k Hn H2 Hk Hh Ho; [lia|].
  cbn [log_loop]. destruct (Nat.eqb_spec i 0) as [->|Hi].
  - destruct k as [|k]; cbn [nth_error].
    + apply (f_equal (@Some R)). cbn. ring.
    + rewrite IH; try lia; [now replace (1 + k)%nat with (0 + S k)%nat by lia|exact Hh|].
      cbn. ring.
  - destruct (Nat.eqb_spec i (n - 1)) as [->|Hj].
    + assert (k = 0%nat) by lia. subst k. cbn [nth_error]. rewrite Nat.add_0_r, Hh. reflexivity.
    + assert (Eo : cur * fac = lo * fac ^ i).
      { rewrite Ho. replace i with (S (i - 1)) at 2 by lia. cbn [pow]. ring. }
      destruct k as [|k]; cbn [nth_error].
      * rewrite Nat.add_0_r. apply (f_equal (@Some R)). cbn. exact Eo.
      * rewrite IH; try lia; [now replace (S i + k)%nat with (i + S k)%nat by lia|exact Hh|].
        cbn. replace (i - 0)%nat with i by lia. exact Eo.
Qed.

Lemma log_real : forall (lo hi : R) n, 0 < lo -> 0 < hi -> (2 <= n)%nat -> forall l, @log_stepper numR lo hi n = Ok l ->
  forall k, (k < n)%nat -> nth_error l k = Some (lo * Rpower (hi / lo) (INR k / INR (n - 1))).
Proof.
  intros lo hi n Hlo Hhi H2 l E k Hk. unfold log_stepper in E.
  destruct (eqb numR lo (ofZ numR 0)); [discriminate|]. injection E as <-.
  assert (Hp : 0 < INR (n - 1)) by (apply lt_0_INR; lia).
  assert (Ef : exp (ln (hi / lo) / IZR (Z.of_nat n - 1)) = Rpower (hi / lo) (1 / INR (n - 1))).
  { unfold Rpower. f_equal. rewrite INR_IZR_INZ. replace (Z.of_nat (n - 1)) with (Z.of_nat n - 1)%Z by lia.
    field. rewrite INR_IZR_INZ in Hp. replace (Z.of_nat (n - 1)) with (Z.of_nat n - 1)%Z in Hp by lia. lra. }
  assert (Hq : 0 < hi / lo) by (apply Rdiv_lt_0_compat; assumption).
  assert (Hr : 0 < Rpower (hi / lo) (1 / INR (n - 1))) by (unfold Rpower; apply exp_pos).
  rewrite log_nth; try lia.
  - apply (f_equal (@Some R)). cbn [Nat.add]. rewrite Ef, <- Rpower_pow, Rpower_mult by exact Hr.
    f_equal. f_equal. field. lra.
  - rewrite Ef, <- Rpower_pow, Rpower_mult by exact Hr.
    replace (1 / INR (n - 1) * INR (n - 1)) with 1 by (field; lra).
    rewrite Rpower_1 by exact Hq. cbn. field. lra.
  - cbn. ring.
Qed.

(** ** Sums of logs *)
Lemma ln1p : forall s d, exp (s + ln (1 + exp d)) = exp s + exp (s + d).
Proof.
  intros s d. rewrite exp_plus, exp_ln, exp_plus; [ring|]. pose proof (exp_pos d). lra.
Qed.

Lemma log_add_spec : forall l v,
  exp (log_add l v) <= meant l + exp v
  /\ meant l + exp v - exp (log_add l v) <= exp (-40) * exp (log_add l v).
Proof.
  intros l v. pose proof (exp_pos (-40)) as P40. destruct l as [s|]; cbn [meant log_add].
  2: { pose proof (exp_pos v). split; [lra|]. replace (0 + exp v - exp v) with 0 by ring. nra. }
  assert (Small : forall big d, d <= -40 -> exp (big + d) <= exp (-40) * exp big).
  { intros big d Hd. rewrite exp_plus, Rmult_comm. apply Rmult_le_compat_r; [left; apply exp_pos|].
    destruct Hd as [Hd| ->]; [left; now apply exp_increasing|lra]. }
  destruct (Rleb v s) eqn:D;
    [rewrite Rleb_spec in D; destruct (Rltb (-40) (v - s)) eqn:D2
    |rewrite Rleb_false in D; destruct (Rltb (-40) (s - v)) eqn:D2];
    (rewrite Rltb_spec in D2 || rewrite Rltb_false in D2).
  - rewrite ln1p. replace (s + (v - s)) with v by ring. pose proof (exp_pos s). pose proof (exp_pos v).
    split; [lra|]. replace (exp s + exp v - (exp s + exp v)) with 0 by ring. nra.
  - pose proof (exp_pos v). split; [lra|]. specialize (Small s (v - s) ltac:(lra)). replace (s + (v - s)) with v in Small by ring. lra.
  - rewrite ln1p. replace (v + (s - v)) with s by ring. pose proof (exp_pos s). pose proof (exp_pos v).
    split; [lra|]. replace (exp s + exp v - (exp v + exp s)) with 0 by ring. nra.
  - pose proof (exp_pos s). split; [lra|]. specialize (Small v (s - v) ltac:(lra)). replace (v + (s - v)) with s in Small by ring. lra.
Qed.

Lemma total_pos : forall l, 0 <= total l.
Proof. induction l as [|[v|] l IH]; cbn; try lra. pose proof (exp_pos v). lra. Qed.
Lemma total_sq_pos : forall l, 0 <= total_sq l.
Proof. induction l as [|[v|] l IH]; cbn [total_sq amount]; try lra. pose proof (exp_pos v). nra. Qed.

Lemma feed_n : forall l s, s_n (feed l s) = (length l + s_n s)%nat.
Proof. induction l as [|[v|] l IH]; intros s; cbn; [reflexivity| |]; rewrite IH; cbn; lia. Qed.
Lemma feed_dosig : forall l s, s_dosig (feed l s) = s_dosig s.
Proof. induction l as [|[v|] l IH]; intros s; cbn; [reflexivity| |]; now rewrite IH. Qed.

Lemma step_bound : forall B k m e t x, 0 < e -> 0 <= t -> 0 <= k -> 0 < m <= B + t ->
  (B - x) <= k * e * B -> x <= B -> 
  x + t - m <= e * m -> m <= x + t -> B + t - m <= (k + 1) * e * (B + t).
Proof. intros. assert (e * m <= e * (B + t)) by nra. assert (k * e * B <= k * e * (B + t)).
  { apply Rmult_le_compat_l; [nra|lra]. } nra. Qed.

Lemma feed_sum : forall l s B k, 0 <= B -> 0 <= k ->
  meant (s_log s) <= B -> B - meant (s_log s) <= k * exp (-40) * B ->
  let s' := feed l s in
  meant (s_log s') <= B + total l
  /\ B + total l - meant (s_log s') <= (k + INR (positive l)) * exp (-40) * (B + total l)
  /\ (s_log s' = None <-> s_log s = None /\ positive l = 0%nat).
Proof.
  induction l as [|[v|] l IH]; intros s B k HB Hk H1 H2 s'; unfold s'.
  - cbn [feed total positive INR]. rewrite !Rplus_0_r. repeat split; auto; tauto.
  - cbn [feed give total positive]. pose proof (log_add_spec (s_log s) v) as [A1 A2].
    pose proof (exp_pos v) as Pv. pose proof (exp_pos (-40)) as Pe. pose proof (exp_pos (log_add (s_log s) v)) as Pm.
    destruct (IH (s_add v s) (B + exp v) (k + 1)) as (C1 & C2 & C3); try lra; cbn [s_add s_log meant] in *.
    + lra.
    + pose proof (step_bound B k (exp (log_add (s_log s) v)) (exp (-40)) (exp v) (meant (s_log s))). lra.
    + cbn [amount]. rewrite <- Rplus_assoc. split; [exact C1|]. split.
      * rewrite S_INR. replace (k + (INR (positive l) + 1)) with (k + 1 + INR (positive l)) by ring. exact C2.
      * rewrite C3. split; [intros [K _]; discriminate|intros [_ K]; discriminate].
  - cbn [feed give total positive amount]. rewrite Rplus_0_l. exact (IH (s_add_zero s) B k HB Hk H1 H2).
Qed.

Lemma feed_sig : forall l s B k, s_dosig s = true -> 0 <= B -> 0 <= k ->
  meant (s_sig s) <= B -> B - meant (s_sig s) <= k * exp (-40) * B ->
  let s' := feed l s in
  meant (s_sig s') <= B + total_sq l
  /\ B + total_sq l - meant (s_sig s') <= (k + INR (positive l)) * exp (-40) * (B + total_sq l)
  /\ (s_sig s' = None <-> s_sig s = None /\ positive l = 0%nat).
Proof.
  induction l as [|[v|] l IH]; intros s B k Hd HB Hk H1 H2 s'; unfold s'.
  - cbn [feed total_sq positive INR]. rewrite !Rplus_0_r. repeat split; auto; tauto.
  - cbn [feed give total_sq positive]. pose proof (log_add_spec (s_sig s) (2 * v)) as [A1 A2].
    assert (Sq : exp v ^ 2 = exp (2 * v)) by (replace (2 * v) with (v + v) by ring; rewrite exp_plus; ring).
    pose proof (exp_pos (2 * v)) as Pv. pose proof (exp_pos (-40)) as Pe. pose proof (exp_pos (log_add (s_sig s) (2 * v))) as Pm.
    cbn [amount]. rewrite Sq.
    destruct (IH (s_add v s) (B + exp (2 * v)) (k + 1)) as (C1 & C2 & C3); try lra; cbn [s_add s_sig s_dosig] in *; rewrite ?Hd in *; cbn [meant] in *; auto.
    + lra.
    + pose proof (step_bound B k (exp (log_add (s_sig s) (2 * v))) (exp (-40)) (exp (2 * v)) (meant (s_sig s))). lra.
    + rewrite <- Rplus_assoc. split; [exact C1|]. split.
      * rewrite S_INR. replace (k + (INR (positive l) + 1)) with (k + 1 + INR (positive l)) by ring. exact C2.
      * rewrite C3. split; [intros [K _]; discriminate|intros [_ K]; discriminate].
  - cbn [feed give total_sq positive amount]. rewrite pow_i, Rplus_0_l by lia. exact (IH (s_add_zero s) B k Hd HB Hk H1 H2).
Qed.

Lemma sum_of_logs : forall l dosig n0 l0,
  let s := feed l (summer0 dosig (Some (n0, l0))) in
  let S := meant l0 + total l in
  s_n s = (n0 + length l)%nat
  /\ meant (s_log s) <= S /\ S - meant (s_log s) <= INR (positive l) * exp (-40) * S
  /\ (s_log s = None <-> l0 = None /\ positive l = 0%nat).
Proof.
  intros l dosig n0 l0 s S.
  assert (P : 0 <= meant l0) by (destruct l0; cbn; [left; apply exp_pos|lra]).
  destruct (feed_sum l (summer0 dosig (Some (n0, l0))) (meant l0) 0) as (A & B & C); cbn [summer0 s_log]; try lra.
  split; [unfold s; rewrite feed_n; cbn; lia|]. rewrite Rplus_0_l in B. auto.
Qed.
Lemma sum_of_squares : forall l start,
  let s := feed l (summer0 true start) in
  meant (s_sig s) <= total_sq l /\ total_sq l - meant (s_sig s) <= INR (positive l) * exp (-40) * total_sq l.
Proof.
  intros l start s.
  assert (D : s_dosig (summer0 true start) = true /\ s_sig (summer0 true start) = None)
    by (destruct start as [[? ?]|]; split; reflexivity). destruct D as [D1 D2].
  destruct (feed_sig l (summer0 true start) 0 0 D1) as (A & B & C); rewrite ?D2; cbn [meant]; try lra.
  rewrite Rplus_0_l in A. rewrite (Rplus_0_l (total_sq l)), (Rplus_0_l (INR _)) in B. auto.
Qed.

Lemma total_perm : forall l l', Permutation l l' -> total l = total l'.
Proof. induction 1; cbn; lra. Qed.
Lemma positive_perm : forall l l', Permutation l l' -> positive l = positive l'.
Proof. induction 1 as [|[|]| [|] [|] |]; cbn; congruence. Qed.

Lemma order_irrelevant : forall l l' dosig, Permutation l l' ->
  let s := feed l (summer0 dosig None) in let s' := feed l' (summer0 dosig None) in
  s_n s = s_n s' /\ Rabs (meant (s_log s) - meant (s_log s')) <= INR (positive l) * exp (-40) * total l.
Proof.
  intros l l' dosig Hp s s'.
  destruct (sum_of_logs l dosig 0 None) as (A1 & A2 & A3 & _).
  destruct (sum_of_logs l' dosig 0 None) as (B1 & B2 & B3 & _).
  rewrite <- (total_perm _ _ Hp), <- (positive_perm _ _ Hp) in *.
  change (summer0 dosig (Some (0%nat, None))) with (summer0 dosig None) in *. fold s in A1, A2, A3. fold s' in B1, B2, B3.
  cbn [meant] in *. rewrite Rplus_0_l in *.
  split; [rewrite A1, B1; now rewrite (Permutation_length Hp)|]. apply Rabs_le. lra.
Qed.

Lemma status_sig : forall s n l q m r, s_dosig s = true -> (1 <= s_n s)%nat ->
  s_status s = Ok (StatusSig n l q m (Fin r)) ->
  n = s_n s /\ s_log s = Some l /\ s_sig s = Some q /\ exp m = exp l / INR n
  /\ Rabs (exp (2 * r) - (exp q / INR n - (exp l / INR n) ^ 2)) <= exp (-40) * (exp q / INR n).
Proof.
  intros s n l q m r Hd Hn H. unfold s_status in H. rewrite Hd in H.
  destruct (s_log s) as [l1|]; [|discriminate]. destruct (s_sig s) as [q1|]; [|discriminate].
  injection H as <- <- <- <- Hr.
  assert (Pn : 0 < INR (s_n s)) by (apply lt_0_INR; lia).
  assert (Em : forall x, exp (x - ln (INR (s_n s))) = exp x / INR (s_n s)).
  { intros x. unfold Rminus. rewrite exp_plus, exp_Ropp, exp_ln by exact Pn. reflexivity. }
  repeat (split; [reflexivity|]). split; [apply Em|].
  set (l2 := q1 - ln (INR (s_n s))) in *. set (lm := l1 - ln (INR (s_n s))) in *.
  assert (E2 : exp l2 = exp q1 / INR (s_n s)) by (apply Em).
  assert (E1 : exp (2 * lm) = (exp l1 / INR (s_n s)) ^ 2).
  { rewrite <- Em. fold lm. replace (2 * lm) with (lm + lm) by ring. rewrite exp_plus. ring. }
  rewrite <- E2, <- E1. pose proof (exp_pos (-40)). pose proof (exp_pos l2).
  destruct (Rltb (-40) (2 * lm - l2)) eqn:D; [rewrite Rltb_spec in D|rewrite Rltb_false in D].
  - unfold np_log in Hr. destruct (Rltb 0 (1 - exp (2 * lm - l2))) eqn:P; [rewrite Rltb_spec in P|].
    2: { destruct (Reqb _ _); discriminate. }
    injection Hr as <-. replace (2 * (1 / 2 * l2 + 1 / 2 * ln (1 - exp (2 * lm - l2)))) with (l2 + ln (1 - exp (2 * lm - l2))) by field.
    rewrite exp_plus, exp_ln by exact P.
    replace (exp l2 * (1 - exp (2 * lm - l2))) with (exp l2 - exp (2 * lm)).
    2: { rewrite Rmult_minus_distr_l, Rmult_1_r, <- exp_plus. f_equal. f_equal. ring. }
    rewrite Rminus_diag_eq, Rabs_R0 by reflexivity. nra.
  - injection Hr as <-. replace (2 * (1 / 2 * l2)) with l2 by field.
    replace (exp l2 - (exp l2 - exp (2 * lm))) with (exp (2 * lm)) by ring. rewrite Rabs_pos_eq by (left; apply exp_pos).
    replace (2 * lm) with ((2 * lm - l2) + l2) by ring. rewrite exp_plus. apply Rmult_le_compat_r; [lra|].
    assert (K : 2 * lm - l2 <= -40) by lra. destruct K as [K| ->]; [left; now apply exp_increasing|lra].
Qed.
Lemma status_plain : forall s, s_dosig s = false -> (1 <= s_n s)%nat ->
  match s_log s with
  | None => s_status s = Err ValueError
  | Some l => exists m, s_status s = Ok (Status (s_n s) l m) /\ exp m = exp l / INR (s_n s)
  end.
Proof.
  intros s Hd Hn. unfold s_status. rewrite Hd. destruct (s_log s) as [l|]; [|reflexivity].
  eexists. split; [reflexivity|]. assert (Pn : 0 < INR (s_n s)) by (apply lt_0_INR; lia).
  unfold Rminus. rewrite exp_plus, exp_Ropp, exp_ln by exact Pn. reflexivity.
Qed.
