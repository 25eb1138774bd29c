(** Property theorems about counting data (C25-C28, C54). *)

From Coq Require Import ZArith List Bool Arith Reals Lra Lia.
From Verif Require Import Exn PieModel Instances CountModel CountSpec CountLemmas CountLemmas2 CountLemmas3 CountLemmas4 CountLemmas5 CountLemmas6 CountCases.
Import ListNotations.
Local Open Scope R_scope.

(** ** C25 *)

(** Whatever the output array held before: n_on+1 positive numbers, summing
    to one, in the stated proportions. *)
Theorem C25_probabilities : forall c0 n_on t_on n_off t_off, 0 < t_on -> 0 < t_off ->
  let p := sigctp c0 n_on t_on n_off t_off in
  let W := sum_over 0 (S n_on) (weight n_on t_on n_off t_off) in
  length p = S n_on /\ Forall (fun x => 0 < x) p /\ sumR p = 1
  /\ forall i, (i <= n_on)%nat -> nth_error p i = Some (weight n_on t_on n_off t_off i / W).
Proof. exact sigctp_facts. Qed.
Print Assumptions C25_probabilities.

(** sigmp returns the mixture of Poisson densities with these probabilities,
    after any calls of any of the methods.  Above 32 counts this needs an
    exact log gamma function. *)
Theorem C25_density : forall G c0 n_on t_on n_off t_off cut junk earlier calls s,
  0 < t_on -> 0 < t_off -> (n_on <= 32)%nat \/ log_fact G 0 -> 0 <= s ->
  snd (sigmp G c0 (RFloat s) (used G c0 calls (fresh G n_on t_on n_off t_off cut junk earlier)))
    = Ok (AFloat (density n_on t_on n_off t_off s)).
Proof. exact density_after_any_calls. Qed.
Print Assumptions C25_density.

(** It is proportional to the marginal likelihood of s, and integrates to one:
    its integral from 0 vanishes at 0 and tends to 1. *)
Theorem C25_posterior : forall n_on t_on n_off t_off s, 0 < t_on -> 0 < t_off ->
  density n_on t_on n_off t_off s =
  t_on / sum_over 0 (S n_on) (weight n_on t_on n_off t_off) * likelihood n_on t_on n_off t_off s.
Proof. exact density_likelihood. Qed.
Print Assumptions C25_posterior.

Theorem C25_normalised : forall n_on t_on n_off t_off, 0 < t_on -> 0 < t_off ->
  exists F : R -> R, F 0 = 0 /\ (forall s, derivable_pt_lim F s (density n_on t_on n_off t_off s))
    /\ (forall eps, 0 < eps -> exists s0, forall s, s0 <= s -> Rabs (F s - 1) < eps).
Proof. exact normalised. Qed.
Print Assumptions C25_normalised.

(** Two counts on source in 1 unit of time, one off source in 2. *)
Example C25_example : forall c0, sigctp c0 2 1 1 2 = [1/6; 1/3; 1/2].
Proof. exact case_sigctp. Qed.
Example C25_example_density : snd (sigmp exactG (fun _ => 7) (RFloat 0)
    (used exactG (fun _ => 7) [CallPn None; CallMp (RFloat 3)] (fresh exactG 2 1 1 2 0 (fun _ => 9) [(5%nat, 2)])))
  = Ok (AFloat (1/6)).
Proof. exact case_density. Qed.

(** ** C26 *)

(** The terms used are a contiguous block holding the largest one; every
    other term is at most cut times the largest; strictly inside the block,
    terms are larger than that; for s > 0 the block only ends early at a term
    at most cut times the largest.  The log gamma function may be wrong by
    delta. *)
Theorem C26_block : forall G delta s n_on t_on n_off t_off offset cut v nt,
  log_fact G delta -> 0 <= s -> 0 < t_on -> 0 < t_off -> 0 <= cut ->
  slmlike G s n_on t_on n_off t_off offset cut = Slm v nt ->
  let T := lterm n_on t_on n_off t_off s in
  exists a b m, (a <= m <= b)%nat /\ (b <= n_on)%nat /\ nt = (b - a + 1)%nat
    /\ Rabs (v + offset - ln (sum_over a nt T)) <= 3 * delta
    /\ (forall k, (k <= n_on)%nat -> T k <= T m)
    /\ (forall k, (k < a \/ b < k <= n_on)%nat -> T k <= cut * T m)
    /\ (forall k, (a < k < b)%nat -> k <> m -> cut * T m < T k)
    /\ (0 < s -> ((0 < a)%nat -> (a < m)%nat /\ T a <= cut * T m) /\ ((b < n_on)%nat -> (m < b)%nat /\ T b <= cut * T m)).
Proof. exact series_block. Qed.
Print Assumptions C26_block.

(** Hence the likelihood is never overestimated, and short of the whole sum
    by at most n_on times cut of it; at most n_on+1 terms are reported. *)
Theorem C26_value : forall G delta s n_on t_on n_off t_off offset cut v nt,
  log_fact G delta -> 0 <= s -> 0 < t_on -> 0 < t_off -> 0 <= cut ->
  slmlike G s n_on t_on n_off t_off offset cut = Slm v nt ->
  let L := likelihood n_on t_on n_off t_off s in
  (nt <= n_on + 1)%nat /\ exp (v + offset) <= exp (3 * delta) * L
  /\ L - exp (3 * delta) * exp (v + offset) <= INR n_on * cut * L.
Proof. exact series_value. Qed.
Print Assumptions C26_value.

(** With cutoff 0, the complete sum. *)
Theorem C26_complete : forall G delta s n_on t_on n_off t_off offset v nt,
  log_fact G delta -> 0 < s -> 0 < t_on -> 0 < t_off ->
  slmlike G s n_on t_on n_off t_off offset 0 = Slm v nt ->
  nt = S n_on /\ Rabs (v + offset - ln (likelihood n_on t_on n_off t_off s)) <= 3 * delta.
Proof. exact series_full. Qed.
Print Assumptions C26_complete.

(** An error is reported only when the log of the largest term is some 700
    away from the offset. *)
Theorem C26_error : forall G delta s n_on t_on n_off t_off offset cut,
  log_fact G delta -> 0 <= s -> 0 < t_on -> 0 < t_off -> 0 <= cut ->
  slmlike G s n_on t_on n_off t_off offset cut = Ierr ->
  exists m, (m <= n_on)%nat /\ (forall k, (k <= n_on)%nat -> lterm n_on t_on n_off t_off s k <= lterm n_on t_on n_off t_off s m)
    /\ 700 - 3 * delta < Rabs (ln (lterm n_on t_on n_off t_off s m) - offset).
Proof. exact series_error. Qed.
Print Assumptions C26_error.

(** The version with a derivative returns the same value, and the derivative
    of the log of the complete sum. *)
Theorem C26_derivative : forall G s n_on t_on n_off t_off offset v d nt,
  0 < s -> 0 < t_on -> 0 < t_off ->
  slmliked G s n_on t_on n_off t_off offset 0 = Slmd v d nt ->
  slmlike G s n_on t_on n_off t_off offset 0 = Slm v nt
  /\ derivable_pt_lim (fun x => ln (likelihood n_on t_on n_off t_off x)) s d.
Proof. exact derivative_value. Qed.
Print Assumptions C26_derivative.

Theorem C26_derivative_at_zero : forall G n_on t_on n_off t_off offset cut,
  log_fact G 0 -> (1 <= n_on)%nat -> 0 < t_on -> 0 < t_off ->
  exists v d, slmliked G 0 n_on t_on n_off t_off offset cut = Slmd v d 1
  /\ slmlike G 0 n_on t_on n_off t_off offset cut = Slm v 1
  /\ derivable_pt_lim (fun x => ln (likelihood n_on t_on n_off t_off x)) 0 d.
Proof. exact derivative_zero. Qed.
Print Assumptions C26_derivative_at_zero.

(** The offset is the log of the largest term at the estimated signal, if
    that is positive and the largest term is not the first one; otherwise the
    log of the only term at signal 0. *)
Theorem C26_offset : forall G delta n_on t_on n_off t_off, log_fact G delta -> 0 < t_on -> 0 < t_off ->
  let s := INR n_on / t_on - INR n_off / t_off in
  let T := lterm n_on t_on n_off t_off in
  (exists m, 0 < s /\ (0 < m <= n_on)%nat /\ (forall k, (k <= n_on)%nat -> T s k <= T s m)
     /\ Rabs (slml_offset G n_on t_on n_off t_off - ln (T s m)) <= 3 * delta)
  \/ ((0 < s -> forall k, (k <= n_on)%nat -> T s k <= T s 0%nat)
      /\ Rabs (slml_offset G n_on t_on n_off t_off - ln (T 0 0%nat)) <= 2 * delta).
Proof. exact offset_value. Qed.
Print Assumptions C26_offset.

(** There is a function with exact logs of factorials. *)
Example C26_example_exact : log_fact exactG 0.
Proof. exact exactG_exact. Qed.
(** Two counts on source and none off source: at s = 5 the terms are in the
    proportions 1, 10, 50.  All are used with cutoff 0, and the last two with
    cutoff 1/4. *)
Example C26_example_complete : exists v, slmlike exactG 5 2 1 0 1 0 0 = Slm v 3 /\ exp v = 61 * exp (-5).
Proof. exact case_complete. Qed.
Example C26_example_block : exists v, slmlike exactG 5 2 1 0 1 0 (1/4) = Slm v 2 /\ exp v = 60 * exp (-5).
Proof. exact case_block. Qed.
Example C26_example_derivative : exists v d, slmliked exactG 5 2 1 0 1 0 0 = Slmd v d 3.
Proof. exact case_derivative. Qed.

(** ** C27 *)

(** After any calls: exact up to 32 events, and otherwise as good as the log
    gamma function; never different from a first call. *)
Theorem C27_small : forall G junk calls n a, (n <= 32)%nat ->
  snd (ppois G n a (after G calls (pois0 junk))) = poisson n a.
Proof. exact ppois_small. Qed.
Print Assumptions C27_small.

Theorem C27_large : forall G delta junk calls n a, log_fact G delta -> 0 <= a ->
  exp (- delta) * poisson n a <= snd (ppois G n a (after G calls (pois0 junk))) <= exp delta * poisson n a.
Proof. exact ppois_big. Qed.
Print Assumptions C27_large.

Theorem C27_history : forall G junk junk' calls calls' n a,
  snd (ppois G n a (after G calls (pois0 junk))) = snd (ppois G n a (after G calls' (pois0 junk'))).
Proof. exact ppois_history. Qed.
Print Assumptions C27_history.

(** The log version is right for more events than in all earlier calls... *)
Theorem C27_log_increasing : forall G junk0 junk calls n a, (1 <= n <= 32)%nat -> a <> 0 ->
  Forall (fun c => (snd (fst c) < n)%nat) calls ->
  snd (lppois G junk n a (lafter G calls (pois0 junk0))) = log_poisson n a.
Proof. exact log_increasing. Qed.
Print Assumptions C27_log_increasing.

(** ... but the same call repeated gives another result, unless the memory
    happens to hold the right value; so may even a first call. *)
Theorem C27_log_repeated : forall G junk0 junk1 junk2 a, a <> 0 -> junk2 3%nat <> ln 2 ->
  snd (lppois G junk1 2 a (pois0 junk0)) = log_poisson 2 a
  /\ snd (lppois G junk2 2 a (fst (lppois G junk1 2 a (pois0 junk0)))) <> log_poisson 2 a.
Proof. exact log_repeated. Qed.
Print Assumptions C27_log_repeated.

Theorem C27_log_refuted : exists G junk n a,
  snd (lppois G junk n a (pois0 junk)) <> log_poisson n a.
Proof. exact (ex_intro _ gammln (log_first gammln)). Qed.
Print Assumptions C27_log_refuted.

Example C27_example : forall G, snd (ppois G 3 2 (after G [(5%nat, 1); (40%nat, 3); (2%nat, 0)] (pois0 (fun _ => 17)))) = 4/3 * exp (-2).
Proof. exact case_poisson. Qed.
Example C27_example_log : forall G, snd (lppois G (fun _ => 0) 3 2 (lafter G [(fun _ => 0, 1%nat, 5); (fun _ => 1, 2%nat, 7)] (pois0 (fun _ => 8))))
  = log_poisson 3 2.
Proof. exact case_log. Qed.
Example C27_example_log_repeated : (1 : R) <> 0 /\ (fun _ : nat => 0) 3%nat <> ln 2.
Proof. exact case_log_refuted. Qed.

(** ** C28 *)

(** After any calls: right for 1..n_on, other numbers but zero rejected. *)
Theorem C28_probability : forall G c0 n_on t_on n_off t_off cut junk earlier calls z,
  0 < t_on -> 0 < t_off -> (1 <= z <= Z.of_nat n_on)%Z ->
  snd (pnsig c0 (Some z) (used G c0 calls (fresh G n_on t_on n_off t_off cut junk earlier)))
    = Ok (Prob (prob n_on t_on n_off t_off (Z.to_nat z))).
Proof. exact pnsig_right. Qed.
Print Assumptions C28_probability.

Theorem C28_rejects : forall G c0 n_on t_on n_off t_off cut junk earlier calls z,
  0 < t_on -> 0 < t_off -> (z < 0 \/ Z.of_nat n_on < z)%Z ->
  snd (pnsig c0 (Some z) (used G c0 calls (fresh G n_on t_on n_off t_off cut junk earlier))) = Err ValueError.
Proof. exact pnsig_rejects. Qed.
Print Assumptions C28_rejects.

(** For n = 0 the whole array comes back, not a probability. *)
Theorem C28_zero_returns_all : forall G c0 n_on t_on n_off t_off cut junk earlier calls,
  0 < t_on -> 0 < t_off ->
  snd (pnsig c0 (Some 0%Z) (used G c0 calls (fresh G n_on t_on n_off t_off cut junk earlier))) = Ok View.
Proof. exact pnsig_zero. Qed.
Print Assumptions C28_zero_returns_all.

Theorem C28_zero_refuted : exists G c0 n_on t_on n_off t_off cut junk, 0 < t_on /\ 0 < t_off
  /\ ~ exists p, snd (pnsig c0 (Some 0%Z) (fresh G n_on t_on n_off t_off cut junk [])) = Ok (Prob p).
Proof. exact pnsig_zero_witness. Qed.
Print Assumptions C28_zero_refuted.

(** Contrary to the comment in the code, the array returned without argument
    is not a copy: assigning to it changes what is returned later. *)
Theorem C28_not_a_copy : forall G c0 n_on t_on n_off t_off cut junk earlier calls v,
  0 < t_on -> 0 < t_off -> (1 <= n_on)%nat ->
  let w := fst (pnsig c0 None (used G c0 calls (fresh G n_on t_on n_off t_off cut junk earlier))) in
  snd (pnsig c0 (Some 1%Z) (write_view 1 v w)) = Ok (Prob v).
Proof. exact pnsig_altered. Qed.
Print Assumptions C28_not_a_copy.

Theorem C28_copy_refuted : exists G c0 n_on t_on n_off t_off cut junk i v z,
  let w := fst (pnsig c0 None (fresh G n_on t_on n_off t_off cut junk [])) in
  snd (pnsig c0 (Some z) (write_view i v w)) <> snd (pnsig c0 (Some z) w).
Proof. exact copy_witness. Qed.
Print Assumptions C28_copy_refuted.

Example C28_example : forall c0, snd (pnsig c0 (Some 2%Z) (fresh exactG 2 1 1 2 0 c0 [])) = Ok (Prob (1/2)).
Proof. exact case_pnsig. Qed.
Example C28_example_copy : forall c0,
  snd (pnsig c0 (Some 1%Z) (write_view 1 5 (fst (pnsig c0 None (fresh exactG 2 1 1 2 0 c0 []))))) = Ok (Prob 5)
  /\ snd (pnsig c0 (Some 1%Z) (fst (pnsig c0 None (fresh exactG 2 1 1 2 0 c0 [])))) = Ok (Prob (1/3)).
Proof. exact case_altered. Qed.

(** ** C54 *)

(** Arrays of floats, except those of one element, are treated element by
    element. *)
Theorem C54_floats : forall G o l, length l <> 1%nat ->
  match siglml G o (RFloats l) with
  | Ok (AFloats vs) => Forall2 (fun s v => siglml G o (RFloat s) = Ok (AFloat v)) l vs
  | Err ValueError => exists s, In s l /\ siglml G o (RFloat s) = Err ValueError
  | _ => False
  end.
Proof. exact siglml_floats. Qed.
Print Assumptions C54_floats.

Theorem C54_density_floats : forall G c0 n_on t_on n_off t_off cut junk earlier calls l,
  0 < t_on -> 0 < t_off -> (n_on <= 32)%nat \/ log_fact G 0 -> Forall (fun s => 0 <= s) l -> length l <> 1%nat ->
  snd (sigmp G c0 (RFloats l) (used G c0 calls (fresh G n_on t_on n_off t_off cut junk earlier)))
    = Ok (AFloats (map (density n_on t_on n_off t_off) l)).
Proof. exact densities_after_any_calls. Qed.
Print Assumptions C54_density_floats.

(** An array of one element gives a number, not an array; an array of integers
    gives integers: at rates 0 and 1, with the density never reaching 1, only
    zeros. *)
Theorem C54_one_element_refuted : exists G o s v, siglml G o (RFloats [s]) = Ok (AFloat v).
Proof. exact one_element_witness. Qed.
Print Assumptions C54_one_element_refuted.

Theorem C54_integers_refuted : exists G c0 cut junk,
  snd (sigmp G c0 (RInts [0; 1]%Z) (fresh G 2 1 1 2 cut junk [])) = Ok (AInts [0; 0]%Z)
  /\ snd (sigmp G c0 (RFloats [0; 1]) (fresh G 2 1 1 2 cut junk [])) = Ok (AFloats [1/6; 3/4 * exp (-1)]).
Proof. exact integers_witness. Qed.
Print Assumptions C54_integers_refuted.

Example C54_example : snd (sigmp exactG (fun _ => 7) (RFloats [0; 0]) (fresh exactG 2 1 1 2 0 (fun _ => 9) [])) = Ok (AFloats [1/6; 1/6]).
Proof. exact case_floats. Qed.
