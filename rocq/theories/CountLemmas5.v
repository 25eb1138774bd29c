(** The posterior density of the signal and the methods of OnOff. *)

From Coq Require Import ZArith List Bool Arith Reals Lra Lia Psatz.
From Verif Require Import Exn PieModel Instances CountModel CountSpec CountLemmas CountLemmas2 CountLemmas3 CountLemmas4.
Import ListNotations.
Open Scope R_scope.

(** ** The Poisson routine, at last *)
Lemma ppois_small : forall G junk calls n a, (n <= 32)%nat ->
  snd (ppois G n a (after G calls (pois0 junk))) = poisson n a.
Proof. intros. apply ppois_value; [apply after_good, pois0_good|assumption]. Qed.
Lemma ppois_big : forall G delta junk calls n a, log_fact G delta -> 0 <= a ->
  exp (- delta) * poisson n a <= snd (ppois G n a (after G calls (pois0 junk))) <= exp delta * poisson n a.
Proof.
  intros G delta junk calls n a HG Ha. pose proof (delta_nonneg _ _ HG) as Hd.
  assert (Q : 0 <= poisson n a).
  { unfold poisson. apply Rmult_le_pos; [apply Rmult_le_pos; [now apply pow_le|apply Rlt_le, exp_pos]|].
    apply Rlt_le, Rinv_0_lt_compat, fact_pos. }
  assert (E1 : exp (- delta) <= 1) by (rewrite <- exp_0; apply exp_le; lra).
  assert (E2 : 1 <= exp delta) by (rewrite <- exp_0; apply exp_le; lra).
  destruct (Nat.le_gt_cases n 32) as [Hn|Hn].
  - rewrite ppois_small by assumption. split; nra.
  - rewrite ppois_large; [|apply after_ntop; cbn; lia|assumption].
    destruct (Reqb a 0) eqn:E.
    + apply Reqb_spec in E. subst a. unfold poisson in *. rewrite pow_ne_zero in * by lia. unfold Rdiv. rewrite !Rmult_0_l, !Rmult_0_r. lra.
    + apply Reqb_false in E. rewrite poisson_exp by lra. rewrite <- !exp_plus. pose proof (HG n) as A. apply abs_iff in A.
      split; apply exp_le; lra.
Qed.
Lemma ppois_history : forall G junk junk' calls calls' n a,
  snd (ppois G n a (after G calls (pois0 junk))) = snd (ppois G n a (after G calls' (pois0 junk'))).
Proof.
  intros. destruct (Nat.le_gt_cases n 32) as [Hn|Hn].
  - now rewrite !ppois_small.
  - rewrite !ppois_large; [reflexivity| | | |]; try assumption; apply after_ntop; cbn; lia.
Qed.

(** Exact for the n used. *)
Definition exact_upto (G : R -> R) (n : nat) : Prop := (n <= 32)%nat \/ log_fact G 0.
Lemma ppois_exact : forall G n m a s, good s -> (p_ntop s <= 32)%nat -> exact_upto G m -> (n <= m)%nat -> 0 <= a ->
  snd (ppois G n a s) = poisson n a.
Proof.
  intros G n m a s Hg Ht He Hn Ha. destruct (Nat.le_gt_cases n 32) as [K|K]; [now apply ppois_value|].
  destruct He as [He|He]; [lia|]. rewrite ppois_large by assumption. destruct (Reqb a 0) eqn:E.
  - apply Reqb_spec in E. subst a. unfold poisson. rewrite pow_ne_zero by lia. unfold Rdiv. ring.
  - apply Reqb_false in E. rewrite poisson_exp by lra. pose proof (He n) as A. apply abs_iff in A. f_equal. lra.
Qed.
Lemma ppois_ntop : forall G n a s, (p_ntop s <= 32)%nat -> (p_ntop (fst (ppois G n a s)) <= 32)%nat.
Proof. intros G n a s H. apply (after_ntop G [(n, a)] s H). Qed.

Definition fine (s : pois) : Prop := good s /\ (p_ntop s <= 32)%nat.
Lemma fine_step : forall G n a s, fine s -> fine (fst (ppois G n a s)).
Proof. intros G n a s [H1 H2]. split; [now apply ppois_good|now apply ppois_ntop]. Qed.

Lemma psigc_loop_fine : forall G t_on st c i acc s, fine s -> fine (fst (psigc_loop G t_on st c i acc s)).
Proof.
  intros G t_on st. induction c as [|ci c IH]; intros i acc s H; cbn [psigc_loop]; [exact H|].
  pose proof (fine_step G i st s H) as F. destruct (ppois G i st s) as [s' p]. now apply IH.
Qed.
Lemma psigc_loop_value : forall G t_on st (f : nat -> R) m len i acc s, fine s -> exact_upto G m -> 0 <= st ->
  (i + len <= S m)%nat ->
  snd (psigc_loop G t_on st (map f (seq i len)) i acc s) = acc + sum_over i len (fun j => f j * t_on * poisson j st).
Proof.
  intros G t_on st f m. induction len as [|len IH]; intros i acc s H He Hs Hi; cbn [seq map psigc_loop].
  - rewrite so_0. cbn [snd]. ring.
  - pose proof (fine_step G i st s H) as F. destruct H as [Hg Ht].
    pose proof (ppois_exact G i m st s Hg Ht He ltac:(lia) Hs) as V.
    destruct (ppois G i st s) as [s' p]. cbn [snd fst] in *. rewrite IH by (try assumption; lia). rewrite so_front, V. ring.
Qed.

(** ** The object *)
Section Object.
Variable G : R -> R.
Variable c0 : arr.
Variables (n_on : nat) (t_on : R) (n_off : nat) (t_off cut : R).
Hypothesis on_pos : 0 < t_on.
Hypothesis off_pos : 0 < t_off.

Definition its_p : list R := map (prob n_on t_on n_off t_off) (seq 0 (S n_on)).
Definition ours (w : oworld) : Prop :=
  fine (po w) /\ o_on_cts (ob w) = n_on /\ o_on (ob w) = t_on /\ o_off_cts (ob w) = n_off /\ o_off (ob w) = t_off
  /\ o_cut (ob w) = cut /\ o_offset (ob w) = slml_offset G n_on t_on n_off t_off
  /\ (o_signal (ob w) = None \/ o_signal (ob w) = Some its_p).

Lemma fresh_ours : forall junk earlier, ours (fresh G n_on t_on n_off t_off cut junk earlier).
Proof.
  intros. unfold fresh, new_onoff. refine (conj (conj _ _) _); cbn.
  - apply after_good, pois0_good.
  - apply after_ntop. cbn. lia.
  - repeat split. now left.
Qed.
Lemma signal_ours : forall w, ours w -> ours (fst (signal c0 w)) /\ snd (signal c0 w) = its_p
  /\ po (fst (signal c0 w)) = po w /\ o_signal (ob (fst (signal c0 w))) = Some its_p.
Proof.
  intros w (F & E1 & E2 & E3 & E4 & E5 & E6 & S0). unfold signal. destruct S0 as [S0|S0]; rewrite S0; cbn [fst snd].
  - rewrite E1, E2, E3, E4, sigctp_closed by assumption. cbn. split; [|now split].
    refine (conj F _). cbn. repeat split; try assumption. now right.
  - split; [|now split]. refine (conj F _). repeat split; try assumption. now right.
Qed.
Lemma psigc_fine : forall s c w, fine w -> fine (fst (psigc G s t_on c w)).
Proof. intros. unfold psigc. now apply psigc_loop_fine. Qed.
Lemma densities_fine : forall c l w, fine w -> fine (fst (densities G t_on c l w)).
Proof.
  intros c. induction l as [|x l IH]; intros w H; cbn [densities]; [exact H|].
  pose proof (psigc_fine x c w H) as F. destruct (psigc G x t_on c w) as [w' v].
  pose proof (IH w' F) as F2. destruct (densities G t_on c l w') as [w'' vs]. exact F2.
Qed.
Lemma ours_po : forall w q, ours w -> fine q -> ours (OWorld (ob w) q).
Proof. intros w q (F & H) Q. exact (conj Q H). Qed.
Lemma ours_on : forall w, ours w -> o_on (ob w) = t_on.
Proof. intros w H. apply H. Qed.

Lemma sigmp_ours : forall r w, ours w -> ours (fst (sigmp G c0 r w)).
Proof.
  intros r w H. unfold sigmp. destruct (signal_ours w H) as (H1 & H2 & _). destruct (signal c0 w) as [w' p]. cbn [fst snd] in *.
  pose proof (proj1 H1) as F.
  assert (A : forall s, ours (fst (let '(q, v) := psigc G s (o_on (ob w')) p (po w') in (OWorld (ob w') q, Ok (AFloat v) : res answer)))).
  { intros s. rewrite (ours_on w' H1). pose proof (psigc_fine s p (po w') F) as Q.
    destruct (psigc G s t_on p (po w')) as [q v]. now apply ours_po. }
  assert (B : forall l (g : list R -> res answer), ours (fst (let '(q, v) := densities G (o_on (ob w')) p l (po w') in (OWorld (ob w') q, g v)))).
  { intros l g. rewrite (ours_on w' H1). pose proof (densities_fine p l (po w') F) as Q.
    destruct (densities G t_on p l (po w')) as [q v]. now apply ours_po. }
  destruct r as [s|l|l| |].
  - apply A.
  - destruct l as [|x [|y l]]; [apply (B [] (fun v => Ok (AFloats v)))|apply A|apply (B (x :: y :: l) (fun v => Ok (AFloats v)))].
  - destruct l as [|x [|y l]]; [apply (B [] (fun v => Ok (AInts (map trunc v))))|apply A|
      apply (B (map IZR (x :: y :: l)) (fun v => Ok (AInts (map trunc v))))].
  - exact H1.
  - exact H1.
Qed.
Lemma pnsig_ours : forall n w, ours w -> ours (fst (pnsig c0 n w)).
Proof.
  intros n w H. unfold pnsig. destruct (signal_ours w H) as (H1 & H2 & _). destruct (signal c0 w) as [w' p]. cbn [fst snd] in *.
  destruct n as [[|z|z]|]; try exact H1; destruct (_ || _); try exact H1; destruct (nth_error p _); exact H1.
Qed.
Lemma used_ours : forall l w, ours w -> ours (used G c0 l w).
Proof.
  induction l as [|c l IH]; intros w H; cbn [used]; [exact H|]. apply IH. destruct c as [r|r|n]; cbn [ostep].
  - exact H.
  - now apply sigmp_ours.
  - now apply pnsig_ours.
Qed.

Lemma psigc_value : forall s w, fine w -> exact_upto G n_on -> 0 <= s ->
  snd (psigc G s t_on its_p w) = density n_on t_on n_off t_off s.
Proof.
  intros s w F He Hs. unfold psigc, its_p. rewrite (psigc_loop_value G t_on (s * t_on) (prob n_on t_on n_off t_off) n_on).
  - unfold density. ring.
  - exact F.
  - exact He.
  - apply Rmult_le_pos; lra.
  - lia.
Qed.
Lemma densities_value : forall l w, fine w -> exact_upto G n_on -> Forall (fun s => 0 <= s) l ->
  snd (densities G t_on its_p l w) = map (density n_on t_on n_off t_off) l.
Proof.
  induction l as [|x l IH]; intros w F He Hl; cbn [densities map]; [reflexivity|]. inversion Hl; subst.
  pose proof (psigc_fine x its_p w F) as F2. pose proof (psigc_value x w F He ltac:(assumption)) as V.
  destruct (psigc G x t_on its_p w) as [w' v]. cbn [fst snd] in *. specialize (IH w' F2 He ltac:(assumption)).
  destruct (densities G t_on its_p l w') as [w'' vs]. cbn [snd] in *. now rewrite IH, V.
Qed.

(** What the methods return, after any calls. *)
Lemma sigmp_scalar : forall w s, ours w -> exact_upto G n_on -> 0 <= s ->
  snd (sigmp G c0 (RFloat s) w) = Ok (AFloat (density n_on t_on n_off t_off s)).
Proof.
  intros w s H He Hs. unfold sigmp. destruct (signal_ours w H) as (H1 & H2 & _). destruct (signal c0 w) as [w' p]. cbn [fst snd] in *.
  subst p. rewrite (ours_on w' H1). pose proof (psigc_value s (po w') (proj1 H1) He Hs) as V.
  destruct (psigc G s t_on its_p (po w')) as [q v]. cbn [snd] in *. now rewrite V.
Qed.
Lemma sigmp_floats : forall w l, ours w -> exact_upto G n_on -> Forall (fun s => 0 <= s) l -> length l <> 1%nat ->
  snd (sigmp G c0 (RFloats l) w) = Ok (AFloats (map (density n_on t_on n_off t_off) l)).
Proof.
  intros w l H He Hl Hn. unfold sigmp. destruct (signal_ours w H) as (H1 & H2 & _). destruct (signal c0 w) as [w' p]. cbn [fst snd] in *.
  subst p. rewrite (ours_on w' H1). pose proof (densities_value l (po w') (proj1 H1) He Hl) as V.
  destruct l as [|x [|y l]]; [| now elim Hn |];
  (destruct (densities G t_on its_p _ (po w')) as [q v]; cbn [snd] in *; now rewrite V).
Qed.
Lemma sigmp_ints : forall w l, ours w -> exact_upto G n_on -> Forall (fun s => 0 <= s)%Z l -> length l <> 1%nat ->
  snd (sigmp G c0 (RInts l) w) = Ok (AInts (map (fun z => trunc (density n_on t_on n_off t_off (IZR z))) l)).
Proof.
  intros w l H He Hl Hn. unfold sigmp. destruct (signal_ours w H) as (H1 & H2 & _). destruct (signal c0 w) as [w' p]. cbn [fst snd] in *.
  subst p. rewrite (ours_on w' H1).
  assert (Hl' : Forall (fun s => 0 <= s) (map IZR l)).
  { apply Forall_forall. intros x Hx. apply in_map_iff in Hx. destruct Hx as (z & <- & Hz).
    rewrite Forall_forall in Hl. now apply (IZR_le 0), Hl. }
  pose proof (densities_value (map IZR l) (po w') (proj1 H1) He Hl') as V. rewrite map_map in V.
  destruct l as [|x [|y l]]; [| now elim Hn |];
  (destruct (densities G t_on its_p _ (po w')) as [q v]; cbn [snd] in *; rewrite V, map_map; reflexivity).
Qed.

Lemma pnsig_value : forall w n, ours w ->
  snd (pnsig c0 n w) =
    match n with
    | None => Ok View
    | Some z => if Z.eqb z 0 then Ok View
                else if Z.ltb 0 z && Z.leb z (Z.of_nat n_on) then Ok (Prob (prob n_on t_on n_off t_off (Z.to_nat z)))
                else Err ValueError
    end.
Proof.
  intros w n H. unfold pnsig. destruct (signal_ours w H) as (H1 & H2 & _). destruct (signal c0 w) as [w' p]. cbn [fst snd] in *. subst p.
  assert (On : o_on_cts (ob w') = n_on) by apply H1. rewrite On.
  destruct n as [z|]; [|reflexivity].
  assert (NE : forall k, (k <= n_on)%nat -> nth_error its_p k = Some (prob n_on t_on n_off t_off k)).
  { intros k Hk. unfold its_p. rewrite (map_nth_error _ k _ (d := k)); [reflexivity|].
    rewrite (nth_error_nth' _ 0%nat) by (rewrite seq_length; lia). f_equal. rewrite seq_nth by lia. lia. }
  destruct z as [|z|z]; [reflexivity| |reflexivity].
  cbn [Z.eqb Z.ltb Z.compare orb andb].
  change (Z.pos z ?= 0)%Z with Gt. cbn [orb].
  destruct (Z.ltb_spec (Z.of_nat n_on) (Z.pos z)) as [K|K].
  - rewrite (proj2 (Z.leb_gt _ _)) by lia. reflexivity.
  - rewrite (proj2 (Z.leb_le _ _)) by lia. rewrite NE by lia. reflexivity.
Qed.
End Object.

(** ** The density is proportional to the likelihood, and normalised *)
Lemma density_likelihood : forall n_on t_on n_off t_off s, 0 < t_on -> 0 < t_off ->
  density n_on t_on n_off t_off s =
  t_on / sum_over 0 (S n_on) (weight n_on t_on n_off t_off) * likelihood n_on t_on n_off t_off s.
Proof.
  intros n_on t_on n_off t_off s Hon Hoff. unfold density, likelihood, prob. rewrite <- so_scal. apply so_ext. intros i Hi.
  unfold weight at 1, lterm, poisson.
  assert (0 < sum_over 0 (S n_on) (weight n_on t_on n_off t_off)) by (apply so_pos; [lia|intros; now apply weight_pos]).
  replace (s * (t_on + t_off)) with ((1 + t_off / t_on) * (s * t_on)) by (field; lra). rewrite (Rpow_mult_distr (1 + t_off / t_on)).
  set (q := (1 + t_off / t_on) ^ i). set (r := (s * t_on) ^ i).
  pose proof (fact_pos (n_on - i)). pose proof (fact_pos i). field. lra.
Qed.

Definition tail (t_on : R) (i : nat) (s : R) : R := sum_over 0 (S i) (fun k => poisson k (s * t_on)).
Lemma poisson_derivable : forall k x, derivable_pt_lim (poisson k) x (match k with O => 0 | S k' => poisson k' x end - poisson k x).
Proof.
  intros k x. unfold poisson.
  assert (D1 : derivable_pt_lim (fun y => exp (- y)) x (exp (- x) * - (1))).
  { apply (derivable_pt_lim_comp (fun y => - y) exp); [|apply derivable_pt_lim_exp].
    apply (derivable_pt_lim_opp id). apply derivable_pt_lim_id. }
  pose proof (derivable_pt_lim_mult _ _ x _ _ (derivable_pt_lim_pow x k) D1) as D.
  pose proof (derivable_pt_lim_scal _ (/ INR (fact k)) x _ D) as D'. cbv beta in D'.
  match type of D' with derivable_pt_lim _ _ ?a => match goal with |- derivable_pt_lim _ _ ?b => replace b with a end end.
  - intros eps He. destruct (D' eps He) as [d Hd]. exists d. intros h Hh Hl. specialize (Hd h Hh Hl).
    unfold mult_real_fct, mult_fct in Hd. unfold Rdiv at 2 3.
    rewrite (Rmult_comm ((x + h) ^ k * exp (- (x + h)))), (Rmult_comm (x ^ k * exp (- x))). exact Hd.
  - pose proof (fact_pos k). destruct k as [|k]; cbn [pred].
    + cbn [fact INR pow]. field.
    + rewrite fact_simpl, mult_INR. pose proof (fact_pos k). pose proof (lt_0_INR (S k) ltac:(lia)). cbn [pow]. field. lra.
Qed.
Lemma tail_derivable : forall t_on i s, derivable_pt_lim (tail t_on i) s (- (t_on * poisson i (s * t_on))).
Proof.
  intros t_on i s. induction i as [|i IH].
  - assert (D : derivable_pt_lim (fun x => poisson 0 (x * t_on)) s ((0 - poisson 0 (s * t_on)) * t_on)).
    { apply (derivable_pt_lim_comp (fun x => x * t_on) (poisson 0)); [apply lin_derivable|]. apply (poisson_derivable 0). }
    replace (- (t_on * poisson 0 (s * t_on))) with ((0 - poisson 0 (s * t_on)) * t_on) by ring.
    intros eps He. destruct (D eps He) as [d Hd]. exists d. intros h Hh Hl. specialize (Hd h Hh Hl).
    unfold tail. rewrite !so_front, !so_0, !Rplus_0_r. exact Hd.
  - assert (D : derivable_pt_lim (fun x => poisson (S i) (x * t_on)) s ((poisson i (s * t_on) - poisson (S i) (s * t_on)) * t_on)).
    { apply (derivable_pt_lim_comp (fun x => x * t_on) (poisson (S i))); [apply lin_derivable|]. apply (poisson_derivable (S i)). }
    pose proof (derivable_pt_lim_plus _ _ _ _ _ IH D) as D2.
    replace (- (t_on * poisson (S i) (s * t_on))) with
      (- (t_on * poisson i (s * t_on)) + (poisson i (s * t_on) - poisson (S i) (s * t_on)) * t_on) by ring.
    intros eps He. destruct (D2 eps He) as [d Hd]. exists d. intros h Hh Hl. specialize (Hd h Hh Hl). unfold plus_fct in Hd.
    unfold tail at 1 2. rewrite !(so_end 0 (S i)). exact Hd.
Qed.

Lemma exp_ge_term : forall x n, 0 <= x -> x ^ n / INR (fact n) <= exp x.
Proof.
  intros x n Hx. unfold exp. destruct (exist_exp x) as [l Hl]. cbn.
  unfold exp_in in Hl. apply (sum_incr (fun i => / INR (fact i) * x ^ i) n l) in Hl.
  - apply Rle_trans with (2 := Hl). clear Hl. destruct n as [|n].
    + cbn. lra.
    + rewrite tech5. assert (0 <= sum_f_R0 (fun i => / INR (fact i) * x ^ i) n).
      { apply cond_pos_sum. intros k. apply Rmult_le_pos; [apply Rlt_le, Rinv_0_lt_compat, fact_pos|now apply pow_le]. }
      unfold Rdiv. lra.
  - intros k. apply Rmult_le_pos; [apply Rlt_le, Rinv_0_lt_compat, fact_pos|now apply pow_le].
Qed.
(** x poisson k x is bounded. *)
Lemma poisson_small : forall k x, 0 < x -> poisson k x <= INR (S k) / x.
Proof.
  intros k x Hx. unfold poisson. pose proof (exp_ge_term x (S k) ltac:(lra)) as E. rewrite exp_Ropp.
  pose proof (exp_pos x). pose proof (fact_pos k). pose proof (lt_0_INR (S k) ltac:(lia)).
  rewrite fact_simpl, mult_INR in E. cbn [pow] in E.
  apply Rmult_le_reg_r with (exp x * x); [apply Rmult_lt_0_compat; lra|].
  replace (x ^ k * / exp x / INR (fact k) * (exp x * x)) with (INR (S k) * (x * x ^ k / (INR (S k) * INR (fact k)))) by (field; lra).
  replace (INR (S k) / x * (exp x * x)) with (INR (S k) * exp x) by (field; lra).
  apply Rmult_le_compat_l; lra.
Qed.
Lemma poisson_nonneg : forall k x, 0 <= x -> 0 <= poisson k x.
Proof.
  intros. unfold poisson. apply Rmult_le_pos; [apply Rmult_le_pos; [now apply pow_le|apply Rlt_le, exp_pos]|].
  apply Rlt_le, Rinv_0_lt_compat, fact_pos.
Qed.

Lemma normalised : forall n_on t_on n_off t_off, 0 < t_on -> 0 < t_off ->
  exists F : R -> R, F 0 = 0 /\ (forall s, derivable_pt_lim F s (density n_on t_on n_off t_off s))
    /\ (forall eps, 0 < eps -> exists s0, forall s, s0 <= s -> Rabs (F s - 1) < eps).
Proof.
  intros n_on t_on n_off t_off Hon Hoff.
  set (p := prob n_on t_on n_off t_off).
  assert (W : 0 < sum_over 0 (S n_on) (weight n_on t_on n_off t_off)) by (apply so_pos; [lia|intros; now apply weight_pos]).
  assert (P0 : forall i, 0 < p i) by (intros; apply Rdiv_lt_0_compat; [now apply weight_pos|exact W]).
  assert (P1 : sum_over 0 (S n_on) p = 1).
  { unfold p, prob. rewrite (so_ext _ _ _ (fun i => / sum_over 0 (S n_on) (weight n_on t_on n_off t_off) * weight n_on t_on n_off t_off i))
      by (intros; unfold Rdiv; ring). rewrite so_scal. field. lra. }
  exists (fun s => 1 - sum_over 0 (S n_on) (fun i => p i * tail t_on i s)). refine (conj _ (conj _ _)).
  - rewrite (so_ext _ _ _ p); [lra|]. intros i _. unfold tail. rewrite so_front, Rmult_0_l.
    rewrite (so_ext _ _ _ (fun _ => 0)), so_const.
    + unfold poisson. rewrite Ropp_0, exp_0. cbn. field.
    + intros k Hk. unfold poisson. rewrite pow_ne_zero by lia. unfold Rdiv. ring.
  - intros s. replace (density n_on t_on n_off t_off s) with (0 - sum_over 0 (S n_on) (fun i => p i * - (t_on * poisson i (s * t_on)))).
    + apply (derivable_pt_lim_minus (fun _ => 1) (fun s => sum_over 0 (S n_on) (fun i => p i * tail t_on i s))).
      * apply derivable_pt_lim_const.
      * apply (so_derivable (S n_on) 0 (fun i s => p i * tail t_on i s) (fun i s => p i * - (t_on * poisson i (s * t_on)))).
        intros i. apply (derivable_pt_lim_scal (tail t_on i) (p i)). apply tail_derivable.
    + unfold density. fold p. rewrite (so_ext _ _ _ (fun i => -1 * (p i * t_on * poisson i (s * t_on)))) by (intros; ring).
      rewrite so_scal. ring.
  - intros eps He.
    set (B := INR (S n_on) * INR (S n_on)).
    assert (HB : 0 < B) by (apply Rmult_lt_0_compat; apply lt_0_INR; lia).
    exists (2 * B / eps / t_on). intros s Hs.
    assert (Hs0 : 0 < 2 * B / eps / t_on) by (repeat apply Rdiv_lt_0_compat; lra).
    assert (Hx : 0 < s * t_on) by (apply Rmult_lt_0_compat; lra).
    assert (T : forall i, (i <= n_on)%nat -> 0 <= tail t_on i s <= B / (s * t_on)).
    { intros i Hi. unfold tail. split; [apply so_nonneg; intros; apply poisson_nonneg; lra|].
      apply Rle_trans with (sum_over 0 (S i) (fun _ => INR (S n_on) / (s * t_on))).
      - apply so_le. intros k Hk. apply Rle_trans with (1 := poisson_small k (s * t_on) Hx).
        apply Rmult_le_compat_r; [apply Rlt_le, Rinv_0_lt_compat; lra|]. apply le_INR. lia.
      - rewrite so_const. unfold B, Rdiv. rewrite Rmult_assoc. apply Rmult_le_compat_r.
        + apply Rmult_le_pos; [apply pos_INR|apply Rlt_le, Rinv_0_lt_compat; lra].
        + apply le_INR. lia. }
    assert (S1 : 0 <= sum_over 0 (S n_on) (fun i => p i * tail t_on i s)).
    { apply so_nonneg. intros i Hi. apply Rmult_le_pos; [apply Rlt_le, P0|apply T; lia]. }
    assert (S2 : sum_over 0 (S n_on) (fun i => p i * tail t_on i s) <= B / (s * t_on)).
    { apply Rle_trans with (sum_over 0 (S n_on) (fun i => B / (s * t_on) * p i)).
      - apply so_le. intros i Hi. rewrite (Rmult_comm (B / _)). apply Rmult_le_compat_l; [apply Rlt_le, P0|apply T; lia].
      - rewrite so_scal, P1. lra. }
    assert (S3 : B / (s * t_on) < eps).
    { apply Rmult_lt_reg_r with (s * t_on); [exact Hx|]. unfold Rdiv. rewrite Rmult_assoc, Rinv_l, Rmult_1_r by lra.
      assert (2 * B / eps / t_on * (eps * t_on) <= s * (eps * t_on)) by (apply Rmult_le_compat_r; [apply Rmult_le_pos; lra|exact Hs]).
      replace (2 * B / eps / t_on * (eps * t_on)) with (2 * B) in H by (field; lra). lra. }
    rewrite Rabs_left1; lra.
Qed.
