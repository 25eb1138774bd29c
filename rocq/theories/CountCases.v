(** Concrete cases and the last steps of the theorems about counting data. *)

From Coq Require Import ZArith List Bool Arith Reals Lra Lia Psatz.
From Verif Require Import Exn PieModel Instances CountModel CountSpec CountLemmas CountLemmas2 CountLemmas3 CountLemmas4 CountLemmas5 CountLemmas6.
Import ListNotations.
Open Scope R_scope.

Lemma density_after_any_calls : forall G c0 n_on t_on n_off t_off cut junk earlier calls s,
  0 < t_on -> 0 < t_off -> (n_on <= 32)%nat \/ log_fact G 0 -> 0 <= s ->
  snd (sigmp G c0 (RFloat s) (used G c0 calls (fresh G n_on t_on n_off t_off cut junk earlier)))
    = Ok (AFloat (density n_on t_on n_off t_off s)).
Proof.
  intros. apply (sigmp_scalar G c0 n_on t_on n_off t_off cut); try assumption.
  apply used_ours; try assumption. apply fresh_ours.
Qed.
Lemma densities_after_any_calls : forall G c0 n_on t_on n_off t_off cut junk earlier calls l,
  0 < t_on -> 0 < t_off -> (n_on <= 32)%nat \/ log_fact G 0 -> Forall (fun s => 0 <= s) l -> length l <> 1%nat ->
  snd (sigmp G c0 (RFloats l) (used G c0 calls (fresh G n_on t_on n_off t_off cut junk earlier)))
    = Ok (AFloats (map (density n_on t_on n_off t_off) l)).
Proof.
  intros. apply (sigmp_floats G c0 n_on t_on n_off t_off cut); try assumption.
  apply used_ours; try assumption. apply fresh_ours.
Qed.
Lemma pnsig_any : forall G c0 n_on t_on n_off t_off cut junk earlier calls z,
  0 < t_on -> 0 < t_off ->
  snd (pnsig c0 (Some z) (used G c0 calls (fresh G n_on t_on n_off t_off cut junk earlier)))
    = if Z.eqb z 0 then Ok View
      else if Z.ltb 0 z && Z.leb z (Z.of_nat n_on) then Ok (Prob (prob n_on t_on n_off t_off (Z.to_nat z)))
      else Err ValueError.
Proof.
  intros. rewrite (pnsig_value G c0 n_on t_on n_off t_off cut); try assumption; [reflexivity|].
  apply used_ours; try assumption. apply fresh_ours.
Qed.
Lemma pnsig_right : forall G c0 n_on t_on n_off t_off cut junk earlier calls z,
  0 < t_on -> 0 < t_off -> (1 <= z <= Z.of_nat n_on)%Z ->
  snd (pnsig c0 (Some z) (used G c0 calls (fresh G n_on t_on n_off t_off cut junk earlier)))
    = Ok (Prob (prob n_on t_on n_off t_off (Z.to_nat z))).
Proof.
  intros. rewrite pnsig_any by assumption. rewrite (proj2 (Z.eqb_neq z 0)) by lia.
  rewrite (proj2 (Z.ltb_lt 0 z)), (proj2 (Z.leb_le z _)) by lia. reflexivity.
Qed.
Lemma pnsig_rejects : forall G c0 n_on t_on n_off t_off cut junk earlier calls z,
  0 < t_on -> 0 < t_off -> (z < 0 \/ Z.of_nat n_on < z)%Z ->
  snd (pnsig c0 (Some z) (used G c0 calls (fresh G n_on t_on n_off t_off cut junk earlier))) = Err ValueError.
Proof.
  intros. rewrite pnsig_any by assumption. rewrite (proj2 (Z.eqb_neq z 0)) by lia.
  destruct (Z.ltb_spec 0 z); [|reflexivity]. rewrite (proj2 (Z.leb_gt z _)) by lia. reflexivity.
Qed.
Lemma pnsig_zero : forall G c0 n_on t_on n_off t_off cut junk earlier calls,
  0 < t_on -> 0 < t_off ->
  snd (pnsig c0 (Some 0%Z) (used G c0 calls (fresh G n_on t_on n_off t_off cut junk earlier))) = Ok View.
Proof. intros. now rewrite pnsig_any. Qed.
Lemma set_nth_same : forall l i v, (i < length l)%nat -> nth_error (set_nth l i v) i = Some v.
Proof. induction l as [|x l IH]; intros [|i] v H; cbn in *; try lia; [reflexivity|]. apply IH. lia. Qed.
Lemma pnsig_altered : forall G c0 n_on t_on n_off t_off cut junk earlier calls v,
  0 < t_on -> 0 < t_off -> (1 <= n_on)%nat ->
  let w := fst (pnsig c0 None (used G c0 calls (fresh G n_on t_on n_off t_off cut junk earlier))) in
  snd (pnsig c0 (Some 1%Z) (write_view 1 v w)) = Ok (Prob v).
Proof.
  intros G c0 n_on t_on n_off t_off cut junk earlier calls v Hon Hoff Hn w.
  set (w0 := used G c0 calls (fresh G n_on t_on n_off t_off cut junk earlier)) in *.
  assert (H0 : ours G n_on t_on n_off t_off cut w0) by (apply used_ours; try assumption; apply fresh_ours).
  destruct (signal_ours G c0 n_on t_on n_off t_off cut Hon Hoff w0 H0) as (H1 & _ & _ & H4).
  assert (W : w = fst (signal c0 w0)) by (unfold w, pnsig; destruct (signal c0 w0); reflexivity).
  rewrite <- W in H1, H4. unfold pnsig, signal, write_view. cbn [ob o_signal]. rewrite H4. cbn [option_map].
  assert (On : o_on_cts (ob w) = n_on) by apply H1. cbn [o_on_cts ob]. rewrite On.
  change (Z.ltb 1 0) with false. cbn [orb]. rewrite (proj2 (Z.ltb_ge _ _)) by lia.
  change (Z.to_nat 1) with 1%nat. rewrite set_nth_same; [reflexivity|].
  unfold its_p. rewrite map_length, seq_length. lia.
Qed.
Lemma log_first : forall G, exists junk n a, snd (lppois G junk n a (pois0 junk)) <> log_poisson n a.
Proof.
  intros G. exists (fun _ => 1), 0%nat, 1. unfold lppois. rewrite (proj2 (Reqb_false 1 0)) by lra.
  cbn [pois0 p_ntop Nat.leb snd]. unfold log_poisson. cbn [fact]. change (INR 1) with 1. rewrite ln_1. cbn [INR]. lra.
Qed.
Lemma one_element : forall G o s, siglml G o (RFloats [s]) = siglml G o (RFloat s).
Proof. reflexivity. Qed.

(** ** n_on = 2, t_on = 1, n_off = 1, t_off = 2 *)
Lemma weights_2121 : weight 2 1 1 2 0 = 3 /\ weight 2 1 1 2 1 = 6 /\ weight 2 1 1 2 2 = 9.
Proof. unfold weight. cbn [Nat.sub Nat.add fact Nat.mul INR pow]. repeat split; field. Qed.
Lemma sum_2121 : sum_over 0 3 (weight 2 1 1 2) = 18.
Proof. destruct weights_2121 as (A & B & C). rewrite !so_front, so_0, A, B, C. ring. Qed.
Lemma prob_2121 : prob 2 1 1 2 0 = 1/6 /\ prob 2 1 1 2 1 = 1/3 /\ prob 2 1 1 2 2 = 1/2.
Proof. destruct weights_2121 as (A & B & C). unfold prob. rewrite sum_2121, A, B, C. repeat split; field. Qed.
Lemma density_2121 : forall s, density 2 1 1 2 s = (1/6 + 1/3 * s + 1/4 * s ^ 2) * exp (- s).
Proof.
  intros s. unfold density. rewrite !so_front, so_0. destruct prob_2121 as (A & B & C). rewrite A, B, C.
  unfold poisson. rewrite !Rmult_1_r. cbn [fact Nat.mul Nat.add INR]. field.
Qed.
Lemma case_sigctp : forall c0, sigctp c0 2 1 1 2 = [1/6; 1/3; 1/2].
Proof.
  intros c0. rewrite sigctp_closed by lra. cbn [seq map]. destruct prob_2121 as (A & B & C). unfold prob in *. now rewrite A, B, C.
Qed.
Lemma density_0 : density 2 1 1 2 0 = 1/6.
Proof. rewrite density_2121, Ropp_0, exp_0. field. Qed.
Lemma density_1 : density 2 1 1 2 1 = 3/4 * exp (-1).
Proof. rewrite density_2121. change (- (1)) with (-1). field. Qed.
Lemma case_density : snd (sigmp exactG (fun _ => 7) (RFloat 0)
    (used exactG (fun _ => 7) [CallPn None; CallMp (RFloat 3)] (fresh exactG 2 1 1 2 0 (fun _ => 9) [(5%nat, 2)])))
  = Ok (AFloat (1/6)).
Proof. rewrite density_after_any_calls; try lra; [now rewrite density_0|left; lia]. Qed.
Lemma case_floats : snd (sigmp exactG (fun _ => 7) (RFloats [0; 0]) (fresh exactG 2 1 1 2 0 (fun _ => 9) [])) = Ok (AFloats [1/6; 1/6]).
Proof.
  rewrite (densities_after_any_calls exactG (fun _ => 7) 2 1 1 2 0 (fun _ => 9) [] []); try lra.
  - cbn [map]. now rewrite density_0.
  - left. lia.
  - repeat constructor; lra.
  - discriminate.
Qed.
Lemma trunc_small : forall x, 0 <= x < 1 -> trunc x = 0%Z.
Proof.
  intros x H. unfold trunc. rewrite (proj2 (Rleb_spec 0 x)) by lra. pose proof (Int_part_bounds x) as [A B].
  assert (IZR (Int_part x) < 1) as C by lra. assert (-1 < IZR (Int_part x)) as D by lra. apply lt_IZR in C, D. lia.
Qed.
Lemma exp_m1 : 0 < exp (-1) < 1.
Proof. split; [apply exp_pos|]. rewrite <- exp_0. apply exp_increasing. lra. Qed.
Lemma integers_truncated : forall G c0 cut junk,
  snd (sigmp G c0 (RInts [0; 1]%Z) (fresh G 2 1 1 2 cut junk [])) = Ok (AInts [0; 0]%Z)
  /\ snd (sigmp G c0 (RFloats [0; 1]) (fresh G 2 1 1 2 cut junk [])) = Ok (AFloats [1/6; 3/4 * exp (-1)]).
Proof.
  intros. split.
  - rewrite (sigmp_ints G c0 2 1 1 2 cut); try lra.
    + cbn [map]. rewrite density_0, density_1. pose proof exp_m1. rewrite !trunc_small by lra. reflexivity.
    + apply fresh_ours.
    + left. lia.
    + repeat constructor; lia.
    + discriminate.
  - rewrite (sigmp_floats G c0 2 1 1 2 cut); try lra.
    + cbn [map]. now rewrite density_0, density_1.
    + apply fresh_ours.
    + left. lia.
    + repeat constructor; lra.
    + discriminate.
Qed.
Lemma case_pnsig : forall c0, snd (pnsig c0 (Some 2%Z) (fresh exactG 2 1 1 2 0 c0 [])) = Ok (Prob (1/2)).
Proof.
  intros. rewrite (pnsig_right exactG c0 2 1 1 2 0 c0 [] []) by (try lra; lia). change (Z.to_nat 2) with 2%nat.
  destruct prob_2121 as (_ & _ & C). now rewrite C.
Qed.
Lemma case_altered : forall c0,
  snd (pnsig c0 (Some 1%Z) (write_view 1 5 (fst (pnsig c0 None (fresh exactG 2 1 1 2 0 c0 []))))) = Ok (Prob 5)
  /\ snd (pnsig c0 (Some 1%Z) (fst (pnsig c0 None (fresh exactG 2 1 1 2 0 c0 [])))) = Ok (Prob (1/3)).
Proof.
  intros. split.
  - apply (pnsig_altered exactG c0 2 1 1 2 0 c0 [] []); try lra; lia.
  - rewrite (pnsig_right exactG c0 2 1 1 2 0 c0 [] [CallPn None]) by (try lra; lia). change (Z.to_nat 1) with 1%nat.
    destruct prob_2121 as (_ & C & _). now rewrite C.
Qed.

(** ** n_on = 2, t_on = 1, n_off = 0, t_off = 1, s = 5 *)
Lemma terms_5 : lterm 2 1 0 1 5 0 = exp (-5) /\ lterm 2 1 0 1 5 1 = 10 * exp (-5) /\ lterm 2 1 0 1 5 2 = 50 * exp (-5).
Proof.
  unfold lterm. rewrite !Rmult_1_r. change (- (5)) with (-5). cbn [Nat.sub Nat.add fact Nat.mul INR pow]. repeat split; field.
Qed.
Lemma exp_m5 : 0 < exp (-5). Proof. apply exp_pos. Qed.
Lemma top_5 : forall m, (m <= 2)%nat -> (forall k, (k <= 2)%nat -> lterm 2 1 0 1 5 k <= lterm 2 1 0 1 5 m) -> m = 2%nat.
Proof.
  intros m Hm H. destruct terms_5 as (A & B & C). pose proof exp_m5. specialize (H 2%nat ltac:(lia)).
  destruct m as [|[|[|m]]]; [rewrite A, C in H; lra|rewrite B, C in H; lra|reflexivity|lia].
Qed.
Lemma no_error_5 : forall cut, 0 <= cut -> slmlike exactG 5 2 1 0 1 0 cut <> Ierr.
Proof.
  intros cut Hc E.
  destruct (series_error exactG 0 5 2 1 0 1 0 cut exactG_exact ltac:(lra) ltac:(lra) ltac:(lra) Hc E) as (m & Hm & Ht & Hl).
  apply top_5 in Ht; [|exact Hm]. subst m. destruct terms_5 as (_ & _ & C). rewrite C in Hl.
  rewrite ln_mult, ln_exp in Hl by (try apply exp_m5; lra).
  assert (0 < ln 50) by (rewrite <- ln_1; apply ln_increasing; lra).
  assert (ln 50 < 50). { rewrite <- (ln_exp 50) at 2. apply ln_increasing; [lra|]. pose proof (exp_ineq1 50 ltac:(lra)). lra. }
  apply Rlt_not_le in Hl. apply Hl. apply abs_iff. lra.
Qed.
Lemma case_complete : exists v, slmlike exactG 5 2 1 0 1 0 0 = Slm v 3 /\ exp v = 61 * exp (-5).
Proof.
  pose proof (no_error_5 0 ltac:(lra)) as NE. destruct (slmlike exactG 5 2 1 0 1 0 0) as [v nt|] eqn:E; [|now elim NE].
  destruct (series_full exactG 0 5 2 1 0 1 0 v nt exactG_exact ltac:(lra) ltac:(lra) ltac:(lra) E) as [-> H].
  exists v. split; [reflexivity|]. apply abs_iff in H. replace v with (ln (likelihood 2 1 0 1 5)) by lra.
  rewrite exp_ln by (apply likelihood_pos; lra). unfold likelihood. rewrite !so_front, so_0.
  destruct terms_5 as (A & B & C). rewrite A, B, C. ring.
Qed.
Lemma case_block : exists v, slmlike exactG 5 2 1 0 1 0 (1/4) = Slm v 2 /\ exp v = 60 * exp (-5).
Proof.
  pose proof (no_error_5 (1/4) ltac:(lra)) as NE. destruct (slmlike exactG 5 2 1 0 1 0 (1/4)) as [v nt|] eqn:E; [|now elim NE].
  destruct (series_block exactG 0 5 2 1 0 1 0 (1/4) v nt exactG_exact ltac:(lra) ltac:(lra) ltac:(lra) ltac:(lra) E)
    as (a & b & m & Hm & Hb & Hn & HV & Hmax & Hout & Hin & Hend).
  destruct terms_5 as (A & B & C). pose proof exp_m5 as P.
  apply top_5 in Hmax; [|lia]. subst m. assert (b = 2)%nat as -> by lia.
  assert (a = 1)%nat as ->.
  { destruct a as [|[|a]].
    - exfalso. pose proof (Hin 1%nat ltac:(lia) ltac:(lia)) as K. rewrite B, C in K. lra.
    - reflexivity.
    - destruct (Hend ltac:(lra)) as [K _]. destruct (K ltac:(lia)) as [K1 K2]. lia. }
  subst nt. exists v. split; [reflexivity|]. apply abs_iff in HV.
  change (2 - 1 + 1)%nat with 2%nat in HV. rewrite !so_front, so_0, B, C in HV.
  replace v with (ln (10 * exp (-5) + (50 * exp (-5) + 0))) by lra. rewrite exp_ln by lra. ring.
Qed.
Lemma case_derivative : exists v d, slmliked exactG 5 2 1 0 1 0 0 = Slmd v d 3.
Proof.
  destruct (series_core exactG 5 2 1 0 1 0 0 ltac:(lra) ltac:(lra) ltac:(lra)) as (km & L & _ & _ & _ & _ & HR).
  destruct case_complete as (v & E & _). destruct (_ || _).
  - destruct HR as [HR _]. rewrite E in HR. discriminate.
  - destruct HR as (a & b & _ & _ & E1 & E2 & _). rewrite E in E1. eexists _, _. rewrite E2. f_equal. now inversion E1.
Qed.

Lemma case_poisson : forall G, snd (ppois G 3 2 (after G [(5%nat, 1); (40%nat, 3); (2%nat, 0)] (pois0 (fun _ => 17)))) = 4/3 * exp (-2).
Proof. intros G. rewrite ppois_small by lia. unfold poisson. cbn [fact Nat.mul Nat.add INR]. change (- (2)) with (-2). field. Qed.
Lemma case_log : forall G, snd (lppois G (fun _ => 0) 3 2 (lafter G [(fun _ => 0, 1%nat, 5); (fun _ => 1, 2%nat, 7)] (pois0 (fun _ => 8))))
  = log_poisson 3 2.
Proof. intros G. apply log_increasing; [lia|lra|]. repeat constructor; cbn; lia. Qed.
Lemma case_log_refuted : (1 : R) <> 0 /\ (fun _ : nat => 0) 3%nat <> ln 2.
Proof. split; [lra|]. pose proof ln_lt_2. lra. Qed.

Lemma pnsig_zero_witness : exists G c0 n_on t_on n_off t_off cut junk, 0 < t_on /\ 0 < t_off
  /\ ~ exists p, snd (pnsig c0 (Some 0%Z) (fresh G n_on t_on n_off t_off cut junk [])) = Ok (Prob p).
Proof.
  exists exactG, (fun _ => 0), 2%nat, 1, 1%nat, 2, 0, (fun _ => 0). refine (conj _ (conj _ _)); try lra.
  intros [p H]. pose proof (pnsig_zero exactG (fun _ => 0) 2 1 1 2 0 (fun _ => 0) [] [] ltac:(lra) ltac:(lra)) as K.
  cbn [used] in K. rewrite K in H. discriminate.
Qed.
Lemma copy_witness : exists G c0 n_on t_on n_off t_off cut junk i v z,
  let w := fst (pnsig c0 None (fresh G n_on t_on n_off t_off cut junk [])) in
  snd (pnsig c0 (Some z) (write_view i v w)) <> snd (pnsig c0 (Some z) w).
Proof.
  exists exactG, (fun _ => 0), 2%nat, 1, 1%nat, 2, 0, (fun _ => 0), 1%nat, 5, 1%Z. cbv zeta.
  destruct (case_altered (fun _ => 0)) as [A B]. rewrite A, B. intros H. inversion H. lra.
Qed.
Lemma one_element_witness : exists G o s v, siglml G o (RFloats [s]) = Ok (AFloat v).
Proof. exists exactG, (OnOff 2 1 1 2 0 0 None), 0. cbn [siglml like]. unfold like, slmlike. rewrite (proj2 (Reqb_spec 0 0)) by reflexivity. eexists. reflexivity. Qed.
Lemma integers_witness : exists G c0 cut junk,
  snd (sigmp G c0 (RInts [0; 1]%Z) (fresh G 2 1 1 2 cut junk [])) = Ok (AInts [0; 0]%Z)
  /\ snd (sigmp G c0 (RFloats [0; 1]) (fresh G 2 1 1 2 cut junk [])) = Ok (AFloats [1/6; 3/4 * exp (-1)]).
Proof. exists exactG, (fun _ => 0), 0, (fun _ => 0). apply integers_truncated. Qed.
