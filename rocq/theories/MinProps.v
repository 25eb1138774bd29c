(** Property theorems about steppers, sums of logs and one-dimensional
    searches (C37-C42). *)

From Coq Require Import ZArith List Bool Arith Reals Lra Lia Psatz Permutation.
From Verif Require Import Exn PieModel Instances MinModel MinSpec MinLemmas MinLemmas2 MinCases.
Import ListNotations.
Local Open Scope R_scope.

(** ** C37 *)

(** In any arithmetic, floating point included: n values, the first lo and
    the last hi exactly; the enumerated version numbers them. *)
Theorem C37_linear : forall (N : num) (lo hi : N) n, (2 <= n)%nat ->
  exists l, lin_stepper lo hi n = Ok l /\ length l = n /\ nth_error l 0 = Some lo
    /\ nth_error l (n - 1) = Some hi /\ lin_enum_stepper lo hi n = Ok (combine (seq 0 n) l).
Proof. exact @lin_any. Qed.
Print Assumptions C37_linear.

Theorem C37_logarithmic : forall (N : num) (lo hi : N) n, (2 <= n)%nat -> eqb N lo (ofZ N 0) = false ->
  exists l, log_stepper lo hi n = Ok l /\ length l = n /\ nth_error l 0 = Some lo
    /\ nth_error l (n - 1) = Some hi /\ log_enum_stepper lo hi n = Ok (combine (seq 0 n) l).
Proof. exact @log_any. Qed.
Print Assumptions C37_logarithmic.

(** Without rounding, the values are equally spaced, or their ratios equal. *)
Theorem C37_linear_values : forall (lo hi : R) n, (2 <= n)%nat -> forall l, @lin_stepper numR lo hi n = Ok l ->
  forall k, (k < n)%nat -> nth_error l k = Some (lo + INR k * (hi - lo) / INR (n - 1)).
Proof. exact lin_real. Qed.
Print Assumptions C37_linear_values.

Theorem C37_logarithmic_values : forall (lo hi : R) n, 0 < lo -> 0 < hi -> (2 <= n)%nat ->
  forall l, @log_stepper numR lo hi n = Ok l ->
  forall k, (k < n)%nat -> nth_error l k = Some (lo * Rpower (hi / lo) (INR k / INR (n - 1))).
Proof. exact log_real. Qed.
Print Assumptions C37_logarithmic_values.

Example C37_example_linear :
  lin_stepper (N := numZ) (-3)%Z 9%Z 5 = Ok [(-3)%Z; 0%Z; 3%Z; 6%Z; 9%Z : numZ]
  /\ lin_enum_stepper (N := numZ) 0%Z 7%Z 3 = Ok [(0%nat, 0%Z : numZ); (1%nat, 3%Z : numZ); (2%nat, 7%Z : numZ)]
  /\ lin_stepper (N := numZ) 0%Z 7%Z 1 = Err ZeroDivisionError.
Proof. repeat split; reflexivity. Qed.
(** From 1 to 4 in three steps: the middle value is 2. *)
Example C37_example_logarithmic : exists l, @log_stepper numR 1 4 3 = Ok l /\ nth_error l 1 = Some 2.
Proof.
  destruct (C37_logarithmic numR 1 4 3 ltac:(lia)) as (l & E & _).
  { apply Reqb_false. cbn. lra. }
  exists l. split; [exact E|]. rewrite (C37_logarithmic_values 1 4 3 ltac:(lra) ltac:(lra) ltac:(lia) l E 1 ltac:(lia)).
  f_equal. replace (INR 1 / INR (3 - 1)) with (/ 2) by (cbn; lra). replace (4 / 1) with (2 * 2) by lra.
  rewrite Rpower_sqrt by lra. rewrite sqrt_square by lra. ring.
Qed.

(** ** C38 *)

(** Started from nothing or from an earlier sum of n0 values with log l0,
    after any entries the count is exact, the sum held is at most the true
    one, and it is short of it by at most e^-40 of the sum for each entry that
    is not zero.  Nothing is held exactly when all entries were zero. *)
Theorem C38_sum : forall l dosig n0 l0,
  let s := feed l (summer0 dosig (Some (n0, l0))) in
  let S := meant l0 + total l in
  s_n s = (n0 + length l)%nat
  /\ meant (s_log s) <= S /\ S - meant (s_log s) <= INR (positive l) * exp (-40) * S
  /\ (s_log s = None <-> l0 = None /\ positive l = 0%nat).
Proof. exact sum_of_logs. Qed.
Print Assumptions C38_sum.

(** The order of the entries is immaterial up to the same error. *)
Theorem C38_order : forall l l' dosig, Permutation l l' ->
  let s := feed l (summer0 dosig None) in let s' := feed l' (summer0 dosig None) in
  s_n s = s_n s' /\ Rabs (meant (s_log s) - meant (s_log s')) <= INR (positive l) * exp (-40) * total l.
Proof. exact order_irrelevant. Qed.
Print Assumptions C38_order.

(** The squares, and what status reports: the mean, and the standard
    deviation from the sums held. *)
Theorem C38_squares : forall l start,
  let s := feed l (summer0 true start) in
  meant (s_sig s) <= total_sq l /\ total_sq l - meant (s_sig s) <= INR (positive l) * exp (-40) * total_sq l.
Proof. exact sum_of_squares. Qed.
Print Assumptions C38_squares.

Theorem C38_status : forall s, s_dosig s = false -> (1 <= s_n s)%nat ->
  match s_log s with
  | None => s_status s = Err ValueError
  | Some l => exists m, s_status s = Ok (Status (s_n s) l m) /\ exp m = exp l / INR (s_n s)
  end.
Proof. exact status_plain. Qed.
Print Assumptions C38_status.

Theorem C38_deviation : forall s n l q m r, s_dosig s = true -> (1 <= s_n s)%nat ->
  s_status s = Ok (StatusSig n l q m (Fin r)) ->
  n = s_n s /\ s_log s = Some l /\ s_sig s = Some q /\ exp m = exp l / INR n
  /\ Rabs (exp (2 * r) - (exp q / INR n - (exp l / INR n) ^ 2)) <= exp (-40) * (exp q / INR n).
Proof. exact status_sig. Qed.
Print Assumptions C38_deviation.

(** With dosig, earlier results given as a start are missing from the squares:
    two values of 1, the first in the start, have standard deviation 0, whose
    log is minus infinity; reported is the log of a negative number. *)
Theorem C38_deviation_after_start_refuted : exists v l q m,
  s_status (feed [Log v] (summer0 true (Some (1%nat, Some v)))) = Ok (StatusSig 2 l q m NotANumber)
  /\ exists l q m, s_status (feed [Log v; Log v] (summer0 true None)) = Ok (StatusSig 2 l q m MinusInf).
Proof.
  exists 0. cbn [feed give summer0]. unfold s_add, s_status. cbn [s_n s_log s_dosig s_sig log_add].
  replace (2 * 0) with 0 by ring. replace (0 - 0) with 0 by ring.
  rewrite (proj2 (Rleb_spec 0 0)) by lra. rewrite (proj2 (Rltb_spec (-40) 0)) by lra. rewrite exp_0, Rplus_0_l.
  replace (INR 2) with 2 by reflexivity. replace (1 + 1) with 2 by ring.
  replace (2 * (ln 2 - ln 2) - (0 - ln 2)) with (ln 2) by ring.
  replace (2 * (ln 2 - ln 2) - (ln 2 - ln 2)) with 0 by ring.
  rewrite (proj2 (Rltb_spec (-40) (ln 2))) by (pose proof ln_lt_2; lra). rewrite (proj2 (Rltb_spec (-40) 0)) by lra.
  rewrite exp_ln, exp_0 by lra. unfold np_log.
  rewrite (proj2 (Rltb_false 0 (1 - 2))) by lra. rewrite (proj2 (Reqb_false (1 - 2) 0)) by lra.
  rewrite (proj2 (Rltb_false 0 (1 - 1))) by lra. rewrite (proj2 (Reqb_spec (1 - 1) 0)) by lra.
  eexists _, _, _. split; [reflexivity|]. eexists _, _, _. reflexivity.
Qed.
Print Assumptions C38_deviation_after_start_refuted.

(** 1, 0 and 2 sum to 3; a log smaller by 50 is dropped. *)
Example C38_example :
  meant (s_log (feed [Log 0; Zero; Log (ln 2)] (summer0 false None))) = 3
  /\ s_n (feed [Log 0; Zero; Log (ln 2)] (summer0 false None)) = 3%nat
  /\ s_log (feed [Log 0; Log (-50)] (summer0 false None)) = Some 0
  /\ Permutation [Log 0; Zero; Log (ln 2)] [Log (ln 2); Log 0; Zero].
Proof.
  pose proof ln_lt_2 as L2. split; [|split; [reflexivity|split]].
  - cbn. rewrite (proj2 (Rleb_false (ln 2) 0)) by lra.
    assert (0 - ln 2 > -40).
    { assert (ln 2 < 2); [|lra]. rewrite <- (ln_exp 2) at 2. apply ln_increasing; [lra|]. pose proof (exp_ineq1 2). lra. }
    rewrite (proj2 (Rltb_spec (-40) (0 - ln 2))) by lra. rewrite ln1p. replace (ln 2 + (0 - ln 2)) with 0 by ring.
    rewrite exp_ln, exp_0 by lra. ring.
  - cbn. rewrite (proj2 (Rleb_spec (-50) 0)) by lra. rewrite (proj2 (Rltb_false (-40) (-50 - 0))) by lra. reflexivity.
  - apply perm_trans with [Log 0; Log (ln 2); Zero]; [apply perm_skip, perm_swap|apply perm_swap].
Qed.

(** ** C39 *)

(** A result has a change of sign and contains the starting interval; the
    function is called at most maxtries + 2 times; nothing else is raised. *)
Theorem C39_bracket : forall f x1 x2 vals maxtries expand, 0 <= expand -> x1 <> x2 ->
  (vals = None \/ vals = Some (f x1, f x2)) ->
  let '(tr, r) := zbracket f x1 x2 vals maxtries expand [] in
  (length tr <= maxtries + 2)%nat /\
  match r with
  | Ok (a, b) => f a * f b < 0 /\ inside a b x1 /\ inside a b x2
  | Err e => e = RuntimeError
  end.
Proof. exact zbracket_spec. Qed.
Print Assumptions C39_bracket.

(** Exactly: the first of the first maxtries intervals, the given one
    included, with a change of sign; RuntimeError when none has. *)
Theorem C39_first : forall f x1 x2 vals maxtries expand, x1 <> x2 ->
  (vals = None \/ vals = Some (f x1, f x2)) ->
  match snd (zbracket f x1 x2 vals maxtries expand []) with
  | Ok r => exists k, (k < maxtries)%nat /\ r = widened f expand k (x1, x2) /\ opposite f r
              /\ forall j, (j < k)%nat -> ~ opposite f (widened f expand j (x1, x2))
  | Err e => e = RuntimeError /\ forall j, (j < maxtries)%nat -> ~ opposite f (widened f expand j (x1, x2))
  end.
Proof. exact zbracket_exact. Qed.
Print Assumptions C39_first.

(** maxtries is documented as the number of attempted expansions; the
    interval reached by the last of them is evaluated and not looked at. *)
Theorem C39_last_expansion_refuted : exists f x1 x2 maxtries expand, 0 <= expand /\ x1 <> x2
  /\ opposite f (widened f expand maxtries (x1, x2))
  /\ In (fst (widened f expand maxtries (x1, x2))) (fst (zbracket f x1 x2 None maxtries expand []))
  /\ snd (zbracket f x1 x2 None maxtries expand []) = Err RuntimeError.
Proof.
  exists (fun x => x), 1, 2, 1%nat, (16/10). split; [lra|]. split; [lra|].
  unfold zbracket, widened, opposite. rewrite (proj2 (Reqb_false 1 2)) by lra. unfold bind, call. cbn [zloop].
  rewrite (Rabs_pos_eq 1), (Rabs_pos_eq 2) by lra. destruct (Rlt_dec 1 2) as [_|]; [|lra].
  rewrite (proj2 (Rltb_false (1 * 2) 0)) by lra. rewrite (proj2 (Rltb_spec 1 2)) by lra.
  cbn [fst snd]. split; [lra|]. split; [|reflexivity]. cbn. tauto.
Qed.
Print Assumptions C39_last_expansion_refuted.

(** With a second try the same search succeeds. *)
Example C39_example : 1 <> 2 /\ snd (zbracket (fun x => x) 1 2 None 2 (16/10) []) = Ok (1 + 16/10 * (1 - 2), 2).
Proof.
  split; [lra|]. unfold zbracket. rewrite (proj2 (Reqb_false 1 2)) by lra. unfold bind, call. cbn [zloop].
  rewrite (Rabs_pos_eq 1), (Rabs_pos_eq 2) by lra.
  rewrite (proj2 (Rltb_false (1 * 2) 0)) by lra. rewrite (proj2 (Rltb_spec 1 2)) by lra.
  unfold bind, call. rewrite (proj2 (Rltb_spec _ 0)) by lra. reflexivity.
Qed.

(** ** C40 *)
Theorem C40_bracket : forall f fuel x1 x2 tr b, x1 <> x2 ->
  MinBracket f fuel x1 x2 [] = (tr, Ok b) ->
  (b_x1 b < b_xm b < b_x2 b) /\ held f b /\ b_fm b <= b_f1 b /\ b_fm b <= b_f2 b
  /\ (b_fm b < b_f1 b \/ b_fm b < b_f2 b) /\ b_fm b <= f x1 /\ b_fm b <= f x2.
Proof. exact MinBracket_spec. Qed.
Print Assumptions C40_bracket.

(** It need not complete: from equal starting points, and on a function that
    is constant, no number of steps is enough. *)
Theorem C40_equal_starts_never_end : forall f fuel x, snd (MinBracket f fuel x x []) = Err OutOfFuel.
Proof. exact MinBracket_equal. Qed.
Print Assumptions C40_equal_starts_never_end.

Theorem C40_constant_never_ends : forall k fuel x1 x2, x1 <> x2 ->
  snd (MinBracket (fun _ => k) fuel x1 x2 []) = Err OutOfFuel.
Proof. exact MinBracket_constant. Qed.
Print Assumptions C40_constant_never_ends.

(** (x-3)^2 from 0 and 1: extrapolation finds 3, in five evaluations. *)
Example C40_example : exists tr x1 x2,
  MinBracket sq3 5 0 1 [] = (tr, Ok (Brak x1 (sq3 x1) 3 (sq3 3) x2 (sq3 x2)))
  /\ x1 = 2618034 / 1000000 /\ length tr = 5%nat.
Proof. exact bracket_sq3. Qed.

(** ** C41 *)

(** The function is evaluated strictly inside the bracket only, at most
    maxit + 1 times.  A result is a point evaluated, with its value, the
    least of all evaluated; otherwise IterErr is raised.  If the function falls
    to m and then rises, the result is within two tolerances of m. *)
Theorem C41_brent : forall f br tol maxit, 0 <= tol -> b_x1 br < b_xm br < b_x2 br ->
  let '(tr, r) := brent f br tol maxit [] in
  (forall y, In y tr -> b_x1 br < y < b_x2 br) /\ In (b_xm br) tr /\ (length tr <= maxit + 1)%nat /\
  match r with
  | Ok (x, fx) => b_x1 br < x < b_x2 br /\ fx = f x /\ (forall y, In y tr -> fx <= f y) /\ In x tr
      /\ (length tr <= maxit)%nat
      /\ (forall m, unimodal f m -> b_x1 br <= m <= b_x2 br -> Rabs (x - m) <= 2 * (tol * Rabs x + EPS0))
  | Err e => e = IterErr
  end.
Proof. exact brent_spec. Qed.
Print Assumptions C41_brent.

(** (x-1)^2 with tolerance 10^-4: exact after five evaluations. *)
Example C41_example : unimodal sq1 1
  /\ exists tr, brent sq1 (Brak 0 1 1 0 (2618034 / 1000000) 3) (1/10^4) 100 [] = (tr, Ok (1, 0)) /\ length tr = 5%nat.
Proof.
  split; [|exact (brent_sq1 3)]. split; intros x y H; unfold sq1; nra.
Qed.

(** ** C42 *)

(** Points and directions of any kind for which moving by zero times a
    direction changes nothing; n directions. *)
Theorem C42_powell : forall V vadd scale f fuel, (forall p d, vadd p (scale 0 d) = p) ->
  forall steps n (p : V) drxns ftol maxit shuffle, (1 <= maxit)%nat -> (1 <= n)%nat -> length drxns = n ->
  match powell V vadd scale f fuel steps n p drxns ftol maxit shuffle with
  | Ok (p', fret, it) => fret = f p' /\ fret <= f p /\ (it <= maxit)%nat
  | Err e => e = IterErr \/ e = OutOfFuel
  end.
Proof. exact powell_spec. Qed.
Print Assumptions C42_powell.

(** OutOfFuel does occur: when the function does not change along the first
    direction, no number of steps is enough. *)
Theorem C42_flat_direction_never_ends : forall V vadd scale f fuel steps n (p : V) drxns v rest ftol maxit (shuffle : bool),
  (1 <= n)%nat -> (if shuffle then shuffled V n drxns else drxns) = v :: rest ->
  (forall x, f (vadd p (scale x v)) = f p) ->
  powell V vadd scale f fuel steps n p drxns ftol maxit shuffle = Err OutOfFuel.
Proof. exact powell_hangs. Qed.
Print Assumptions C42_flat_direction_never_ends.

Example C42_example : (forall p d, p + 0 * d = p)
  /\ powell R Rplus Rmult sq1 5 10 1 0 [1] 2 200 false = Ok (1, 0, 1%nat).
Proof. split; [intros; ring|exact (powell_sq1 9)]. Qed.
Definition plane_add (a b : R * R) := (fst a + fst b, snd a + snd b).
Definition plane_scale (x : R) (a : R * R) := (x * fst a, x * snd a).
(** (y-1)^2 in the plane, starting along x. *)
Example C42_example_flat : forall x,
  (fun p => sq1 (snd p)) (plane_add (4, 5) (plane_scale x (1, 0))) = sq1 (snd (4, 5)).
Proof. intros x. unfold sq1. cbn. ring. Qed.
