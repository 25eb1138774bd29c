(** The last step to the property theorems about parameters and grids. *)

From Coq Require Import ZArith List Bool Arith Lia Reals Lra.
From Verif Require Import Exn PieModel PieSpec PieLemmas PieLemmas2 PieGridModel PieGridSpec
  PieGridLemmas PieGridLemmas2 PieGridLemmas3 PieKeep PieExact PieParams PieSession Instances
  PieRealSpec PieRealLemmas PieRealLemmas2 PieRealGrid.
Import ListNotations.
Open Scope exn_scope.

Section Gen.
Context {N : num}.
Notation state := (st N).

Lemma session_lists : forall dflt (s : state), session dflt s -> lists_match_status s.
Proof. intros dflt s H. apply (session_Inv _ _ H). Qed.

Lemma run_session : forall dflt l (s : state), session dflt s -> session dflt (run dflt l s).
Proof.
  intros dflt l. induction l as [|o l IH]; intros s H; [exact H|]. cbn. apply IH. now constructor.
Qed.

Lemma rejected : forall dflt (s s' : state) p o e, session dflt s -> defined s p ->
  plain_assignment p o -> run_op dflt o s = (s', Err e) -> s' = s.
Proof.
  intros dflt s s' p o e H D P E. apply session_Inv in H as I.
  destruct o; cbn in P; try contradiction; subst p0; cbn [run_op] in E;
    try rewrite (bind_ok _ _ _ _ _ _ _ _ (access_defined dflt p s I D)) in E.
  - eapply fix_rej; eauto.
  - eapply set_value_rej; eauto.
  - eapply fix_rej; eauto.
  - eapply first_rej; eauto.
  - eapply last_rej; eauto.
  - eapply unbounded_rej; eauto.
Qed.

Lemma refused_step : forall dflt (s s' : state) p o e, session dflt s -> defined s p ->
  o = ONext p \/ o = OPrev p -> run_op dflt o s = (s', Err e) ->
  e = ParamError \/ e = ParamRangeError -> s' = s.
Proof.
  intros dflt s s' p o e H D P E He. apply session_Inv in H as I.
  destruct P as [-> | ->]; cbn [run_op] in E;
    rewrite (bind_ok _ _ _ _ _ _ _ _ (access_defined dflt p s I D)) in E.
  - eapply next_rej; eauto.
  - eapply prev_rej; eauto.
Qed.

Lemma rejected_ends : forall dflt (s s' : state) p lo hi n, session dflt s -> defined s p ->
  (run_op dflt (OLinStep p lo hi n) s = (s', Err ParamRangeError) -> s' = s) /\
  (forall e, run_op dflt (OLogStep p lo hi n) s = (s', Err e) ->
     e = ParamRangeError \/ e = ValueError -> s' = s).
Proof.
  intros dflt s s' p lo hi n H D. apply session_Inv in H as I. cbn [run_op].
  rewrite !(bind_ok _ _ _ _ _ _ _ _ (access_defined dflt p s I D)). split.
  - intros E. eapply linstep_rej; eauto.
  - intros e E He. eapply logstep_rej; eauto.
Qed.

Lemma trail_states : forall l (s e : state) P, trail s l e -> Forall P l -> P s.
Proof.
  intros [|a [|b l]] s e P T F; [destruct T| |].
  - destruct T as [-> _]. now inversion F.
  - destruct T as [-> _]. now inversion F.
Qed.

Lemma grid_order : forall dflt (s : state) ns, session dflt s -> stepl s <> [] -> at_start s ->
  (forall p, In p (stepl s) -> steppable (ps s p)) -> sizes s ns ->
  exists l e inds, trail s l e /\ Forall2 indices l inds
    /\ NoDup inds /\ (forall ind, In ind inds <-> in_grid ns ind)
    /\ consecutive neighbours inds
    /\ at_start e /\ same_setup s e
    /\ (forall t, In t l -> same_setup s t /\ forall q, ~ In q (stepl s) -> ps t q = ps s q)
    /\ (forall q, ~ In q (stepl s) -> ps e q = ps s q).
Proof.
  intros dflt s ns H Hne A St Sz. apply session_Inv in H as I.
  destruct (trail_complete s ns I Hne A St Sz) as (l & e & T & F & In1 & W).
  exists l, e, (snake ns). split; [exact T|]. split; [exact F|].
  split; [apply snake_NoDup|]. split; [intros; apply snake_complete|].
  destruct (start_axes s (stepl s) ns) as [_ H1]; auto.
  split; [now apply snake_adjacent|]. split; [apply W|]. split.
  - split; [apply W|]. split; [apply W|]. split; [apply W|]. split.
    + intros q Hq. apply W. intros K.
      apply (lm_fixed _ (iv_lm _ I)) in Hq. apply (lm_step _ (iv_lm _ I)) in K. congruence.
    + intros q Hq. destruct (wb_on _ _ W q Hq) as (h & S1 & ->).
      apply stepped_setup in S1. destruct S1 as (A1 & A2 & A3 & A4).
      destruct (rewind_setup h) as (B1 & B2 & B3 & B4).
      rewrite B1, B2, B3, B4. auto.
  - split.
    + intros t Ht. rewrite Forall_forall in In1. specialize (In1 t Ht).
      split; [now apply inside_setup|apply In1].
    + apply W.
Qed.

Lemma add_listener_once : forall dflt (s : state) p l, session dflt s -> defined s p ->
  (In l (p_lst (ps s p)) -> run_op dflt (OAddListener p l) s = (s, Ok tt)) /\
  (~ In l (p_lst (ps s p)) -> exists s', run_op dflt (OAddListener p l) s = (s', Ok tt)
     /\ (forall q, ps s' q = if Nat.eqb q p then with_lst (p_lst (ps s p) ++ [l]) (ps s p) else ps s q)
     /\ trace s' = trace s /\ fixedl s' = fixedl s /\ varyl s' = varyl s /\ stepl s' = stepl s).
Proof.
  intros dflt s p l H D. apply session_Inv in H as I. cbn [run_op].
  rewrite !(bind_ok _ _ _ _ _ _ _ _ (access_defined dflt p s I D)).
  unfold add_listener, bind, hnd.
  destruct (mem_spec l (p_lst (ps s p))) as [K|K]; unfold mem in *.
  - split; [|contradiction]. intros _.
    assert (E : existsb (Nat.eqb l) (p_lst (ps s p)) = true).
    { apply existsb_exists. exists l. split; [exact K|apply Nat.eqb_refl]. }
    now rewrite E.
  - split; [contradiction|]. intros _.
    assert (E : existsb (Nat.eqb l) (p_lst (ps s p)) = false).
    { apply not_true_iff_false. intros E. apply existsb_exists in E as (x & Hx & Ex).
      apply Nat.eqb_eq in Ex. now subst. }
    rewrite E. eexists. split; [reflexivity|]. now repeat split.
Qed.

Lemma listeners_nodup : forall dflt (s : state) p, session dflt s -> NoDup (p_lst (ps s p)).
Proof. intros dflt s p H. apply session_Inv in H as I. apply (ho_lst_nd _ (iv_h s I p)). Qed.

Lemma announced_ops : forall dflt (s : state) o, session dflt s -> ~ adds_listener o ->
  announced s (fst (run_op dflt o s)).
Proof. intros dflt s o H A. apply session_Inv in H as I. now apply run_op_annI. Qed.

Lemma announced_once : forall dflt (s s' : state) p o, session dflt s -> defined s p ->
  revalues p o -> run_op dflt o s = (s', Ok tt) ->
  exists v, p_value (ps s' p) = Some v /\ trace s' = trace s ++ tell_value p (p_lst (ps s p)) v.
Proof.
  intros dflt s s' p o H D R E. apply session_Inv in H as I.
  pose proof (revalue_round dflt p o s I D R) as K. rewrite E in K. now apply K.
Qed.

Lemma announced_fix : forall dflt (s s' : state) p v, session dflt s -> defined s p ->
  p_status (ps s p) <> Stepping -> run_op dflt (OFix p (Some v)) s = (s', Ok tt) ->
  p_value (ps s' p) = Some v /\
  trace s' = trace s ++ tell_value p (p_lst (ps s p)) v
     ++ tell_status p (p_lst (ps s p)) (p_status (ps s p), Fixed).
Proof.
  intros dflt s s' p v H D Hs E. apply session_Inv in H as I. cbn [run_op] in E.
  rewrite (bind_ok _ _ _ _ _ _ _ _ (access_defined dflt p s I D)) in E. split.
  - destruct (fix_exact p (Some v) s I D) as [[_ K]|[_ (s1 & s2 & K & _ & P & _)]];
      rewrite K in E; [discriminate|]. injection E as <-. now rewrite P.
  - now apply fix_round.
Qed.

Lemma round_trip : forall dflt (s : state) names, session dflt s ->
  (forall p, In p names -> p_status (ps s p) = Fixed \/ p_status (ps s p) = Varying) ->
  exists l, get_params dflt names s = (s, Ok l) /\ map fst l = names
    /\ (forall p v, In (p, v) l -> p_value (ps s p) = Some v)
    /\ forall (s2 : state) pv, session dflt s2 ->
        (forall p v, In (p, v) l -> pv p = Some v) ->
        (forall p, In p names -> p_status (ps s2 p) = Fixed \/ p_status (ps s2 p) = Varying) ->
        (forall p v b, In (p, v) l -> p_bnd (ps s2 p) = Some b -> within v b = true) ->
        exists s3, run_op dflt (OSetParams names pv) s2 = (s3, Ok tt)
          /\ fixedl s3 = fixedl s2 /\ varyl s3 = varyl s2 /\ stepl s3 = stepl s2
          /\ (forall q, info s3 q = info s2 q)
          /\ (forall q, ~ In q names -> ps s3 q = ps s2 q)
          /\ (forall q v, In (q, v) l -> ps s3 q = with_value v (ps s2 q)).
Proof.
  intros dflt s names H St. apply session_Inv in H as I.
  destruct (get_params_ok dflt names s I) as (l & E & F & G).
  { intros p Hp. unfold defined. destruct (St p Hp); congruence. }
  exists l. split; [exact E|]. split; [exact F|]. split; [exact G|].
  intros s2 pv H2 Hpv St2 B2. apply session_Inv in H2 as I2.
  destruct (set_params_ok dflt pv names s2 I2 St2) as (s3 & E3 & I3 & L1 & L2 & L3 & L4 & O & V).
  - intros p Hp. rewrite <- F in Hp. apply in_map_iff in Hp as ((q & v) & Eq & Hin). cbn in Eq; subst q.
    exists v. split; [now apply Hpv|]. intros b. now apply B2.
  - exists s3. do 5 (split; [assumption|]). split; [exact O|].
    intros q v Hin. apply V; [|now apply Hpv].
    rewrite <- F. apply in_map_iff. exists (q, v). now split.
Qed.

Lemma write_back : forall dflt (s : state) names, session dflt s ->
  (forall p, In p names -> p_status (ps s p) = Fixed \/ p_status (ps s p) = Varying) ->
  (forall p v b, In p names -> p_value (ps s p) = Some v -> p_bnd (ps s p) = Some b ->
     within v b = true) ->
  exists s', run_op dflt (OSetParams names (fun p => p_value (ps s p))) s = (s', Ok tt)
    /\ same_state s s'.
Proof.
  intros dflt s names H St B. apply session_Inv in H as I.
  destruct (set_params_ok dflt (fun p => p_value (ps s p)) names s I St)
    as (s3 & E3 & I3 & L1 & L2 & L3 & L4 & O & V).
  - intros p Hp. destruct (p_value (ps s p)) as [v|] eqn:E.
    + exists v. split; [reflexivity|]. intros b Hb. eapply B; eauto.
    + exfalso. apply (ho_val _ (iv_h s I p)); auto. destruct (St p Hp); congruence.
  - exists s3. split; [exact E3|]. constructor; auto.
    intros p. destruct (in_dec Nat.eq_dec p names) as [Hp|Hp]; [|now apply O].
    destruct (p_value (ps s p)) as [v|] eqn:E.
    + rewrite (V p v Hp E). destruct (ps s p); cbn in *. now subst.
    + exfalso. apply (ho_val _ (iv_h s I p)); auto. destruct (St p Hp); congruence.
Qed.
End Gen.

Open Scope R_scope.

Lemma session_linstep : forall dflt (s s0 : st numR) p (lo hi : R) n l,
  session dflt s -> run_op dflt (OLinStep p (Some (lo : numR)) (Some (hi : numR)) n) s = (s0, Ok tt) ->
  (2 <= n)%Z -> Forall (leaves_steps p) l ->
  at_step s0 p 0 lo /\
  exists k, (0 <= k < n)%Z /\ at_step (run dflt l s0) p k (lin_value lo hi n k).
Proof.
  intros dflt s s0 p lo hi n l H E Hn F. apply session_Inv in H as I.
  destruct (linop_lattice dflt s s0 p lo hi n I E Hn) as (I0 & L & A & _). split; [exact A|].
  destruct (lattice_run (lin_value lo hi n) n p dflt l s0 F I0 L) as [_ L'].
  destruct (ol_val _ _ _ L') as (k & K1 & K2 & K3). exists k. split; [exact K2|].
  split; [apply L'|]. auto.
Qed.

Lemma session_linstep_moves : forall dflt (s s0 : st numR) p (lo hi : R) n l k t,
  session dflt s -> run_op dflt (OLinStep p (Some (lo : numR)) (Some (hi : numR)) n) s = (s0, Ok tt) ->
  (2 <= n)%Z -> Forall (leaves_steps p) l -> t = run dflt l s0 -> p_num (ps t p) = Some k ->
  (if (k <? n - 1)%Z
   then exists s1 s2, run_op dflt (ONext p) t = (s1, Ok tt)
          /\ at_step s1 p (k + 1) (lin_value lo hi n (k + 1))
          /\ run_op dflt (OPrev p) s1 = (s2, Ok tt) /\ same_state t s2
   else run_op dflt (ONext p) t = (t, Err ParamRangeError))
  /\ (if (0 <? k)%Z
   then exists s1, run_op dflt (OPrev p) t = (s1, Ok tt)
          /\ at_step s1 p (k - 1) (lin_value lo hi n (k - 1))
   else run_op dflt (OPrev p) t = (t, Err ParamRangeError))
  /\ (exists s1, run_op dflt (OFirst p) t = (s1, Ok tt) /\ at_step s1 p 0 lo)
  /\ (exists s1, run_op dflt (OLast p) t = (s1, Ok tt) /\ at_step s1 p (n - 1) hi).
Proof.
  intros dflt s s0 p lo hi n l k t H E Hn F -> Hk. apply session_Inv in H as I.
  destruct (linop_lattice dflt s s0 p lo hi n I E Hn) as (I0 & L & A & _).
  destruct (lattice_run (lin_value lo hi n) n p dflt l s0 F I0 L) as [I' L'].
  destruct (lattice_ops _ n dflt _ p k I' L' Hk) as (A1 & A2 & A3 & A4).
  assert (Hz : IZR (n - 1) <> 0) by (apply not_0_IZR; lia).
  split; [|split; [exact A2|split]].
  - destruct (k <? n - 1)%Z; [|exact A1]. destruct A1 as (s1 & B1 & B2).
    destruct (lattice_next_prev _ n dflt _ s1 p I' L' B1) as (s2 & C1 & C2).
    exists s1, s2. auto.
  - destruct A3 as (s1 & B1 & B2). exists s1. split; [exact B1|].
    replace lo with (lin_value lo hi n 0) at 1; [exact B2|]. unfold lin_value. field. exact Hz.
  - destruct A4 as (s1 & B1 & B2). exists s1. split; [exact B1|].
    replace hi with (lin_value lo hi n (n - 1)) at 1; [exact B2|]. unfold lin_value. field. exact Hz.
Qed.

Lemma session_logstep : forall dflt (s s0 : st numR) p (lo hi : R) n l,
  session dflt s -> run_op dflt (OLogStep p (Some (lo : numR)) (Some (hi : numR)) n) s = (s0, Ok tt) ->
  (2 <= n)%Z -> Forall (leaves_steps p) l ->
  0 < lo * hi /\ at_step s0 p 0 lo /\
  exists k, (0 <= k < n)%Z /\ at_step (run dflt l s0) p k (log_value lo hi n k).
Proof.
  intros dflt s s0 p lo hi n l H E Hn F. apply session_Inv in H as I.
  destruct (logop_lattice dflt s s0 p lo hi n I E Hn) as (Hp & I0 & L & A & _).
  split; [exact Hp|]. split; [exact A|].
  destruct (lattice_run (log_value lo hi n) n p dflt l s0 F I0 L) as [_ L'].
  destruct (ol_val _ _ _ L') as (k & K1 & K2 & K3). exists k. split; [exact K2|].
  split; [apply L'|]. auto.
Qed.

Lemma session_logstep_moves : forall dflt (s s0 : st numR) p (lo hi : R) n l k t,
  session dflt s -> run_op dflt (OLogStep p (Some (lo : numR)) (Some (hi : numR)) n) s = (s0, Ok tt) ->
  (2 <= n)%Z -> Forall (leaves_steps p) l -> t = run dflt l s0 -> p_num (ps t p) = Some k ->
  (if (k <? n - 1)%Z
   then exists s1 s2, run_op dflt (ONext p) t = (s1, Ok tt)
          /\ at_step s1 p (k + 1) (log_value lo hi n (k + 1))
          /\ run_op dflt (OPrev p) s1 = (s2, Ok tt) /\ same_state t s2
   else run_op dflt (ONext p) t = (t, Err ParamRangeError))
  /\ (if (0 <? k)%Z
   then exists s1, run_op dflt (OPrev p) t = (s1, Ok tt)
          /\ at_step s1 p (k - 1) (log_value lo hi n (k - 1))
   else run_op dflt (OPrev p) t = (t, Err ParamRangeError))
  /\ (exists s1, run_op dflt (OFirst p) t = (s1, Ok tt) /\ at_step s1 p 0 lo)
  /\ (exists s1, run_op dflt (OLast p) t = (s1, Ok tt) /\ at_step s1 p (n - 1) hi).
Proof.
  intros dflt s s0 p lo hi n l k t H E Hn F -> Hk. apply session_Inv in H as I.
  destruct (logop_lattice dflt s s0 p lo hi n I E Hn) as (Hp & I0 & L & A & _).
  destruct (lattice_run (log_value lo hi n) n p dflt l s0 F I0 L) as [I' L'].
  destruct (lattice_ops _ n dflt _ p k I' L' Hk) as (A1 & A2 & A3 & A4).
  split; [|split; [exact A2|split]].
  - destruct (k <? n - 1)%Z; [|exact A1]. destruct A1 as (s1 & B1 & B2).
    destruct (lattice_next_prev _ n dflt _ s1 p I' L' B1) as (s2 & C1 & C2).
    exists s1, s2. auto.
  - destruct A3 as (s1 & B1 & B2). exists s1. split; [exact B1|].
    now rewrite log_value_0 in B2.
  - destruct A4 as (s1 & B1 & B2). exists s1. split; [exact B1|].
    now rewrite log_value_end in B2.
Qed.

(** ends of different sign, or a zero end, are refused *)
Lemma logstep_signs : forall dflt (s : st numR) p (lo hi : R) n,
  session dflt s -> defined s p -> lo * hi <= 0 ->
  exists e, run_op dflt (OLogStep p (Some (lo : numR)) (Some (hi : numR)) n) s = (s, Err e)
    /\ (e = ValueError \/ e = ParamRangeError).
Proof.
  intros dflt s p lo hi n H D Hs. apply session_Inv in H as I. cbn [run_op].
  rewrite (bind_ok _ _ _ _ _ _ _ _ (access_defined dflt p s I D)).
  unfold logstep. unfold bind at 1, hnd.
  destruct (check_end_cases (p_bnd (ps s p)) (Some (lo : numR)) s) as [E|E];
    [rewrite (bind_ok _ _ _ _ _ _ _ _ E)
    |rewrite (bind_err _ _ _ _ _ _ _ _ E); exists ParamRangeError; auto].
  destruct (check_end_cases (p_bnd (ps s p)) (Some (hi : numR)) s) as [E'|E'];
    [rewrite (bind_ok _ _ _ _ _ _ _ _ E')
    |rewrite (bind_err _ _ _ _ _ _ _ _ E'); exists ParamRangeError; auto].
  exists ValueError. cbn.
  assert (K : Rleb (lo * hi) 0 = true) by now apply Rleb_spec.
  rewrite K. auto.
Qed.

Lemma session_range : forall dflt (s s0 : st numR) p o (lo hi : R) l,
  session dflt s -> gives_value p o -> run_op dflt o s = (s0, Ok tt) ->
  p_bnd (ps s0 p) = Some ((lo, hi) : numR * numR) -> Forall (keeps_range p) l ->
  in_range s0 p lo hi /\ in_range (run dflt l s0) p lo hi.
Proof.
  intros dflt s s0 p o lo hi l H G E Hb F. apply session_Inv in H as I.
  assert (I0 : Inv s0). { pose proof (run_op_Inv dflt o s I) as K. now rewrite E in K. }
  pose proof (gives_pin dflt s s0 p o lo hi I G E Hb) as P0.
  destruct (pin_run lo hi p dflt l s0 F I0 P0) as [_ P1].
  split; [split; [apply P0|apply (pin_val _ _ _ P0)]|split; [apply P1|apply (pin_val _ _ _ P1)]].
Qed.

Lemma unbounded_bijection : forall dflt (s : st numR) p (lo hi : R),
  session dflt s -> p_status (ps s p) = Varying -> p_bnd (ps s p) = Some ((lo, hi) : numR * numR) ->
  lo < hi ->
  (forall u : R, exists s' v, run_op dflt (OUSet p (u : numR)) s = (s', Ok tt)
     /\ p_value (ps s' p) = Some (v : numR) /\ lo < v < hi
     /\ p_bnd (ps s' p) = p_bnd (ps s p) /\ p_status (ps s' p) = Varying
     /\ unbounded_get p s' = (s', Ok (u : numR)))
  /\ (forall u w s1 s2 v1 v2, u < w -> run_op dflt (OUSet p (u : numR)) s = (s1, Ok tt) ->
       run_op dflt (OUSet p (w : numR)) s = (s2, Ok tt) ->
       p_value (ps s1 p) = Some (v1 : numR) -> p_value (ps s2 p) = Some (v2 : numR) -> v1 < v2)
  /\ (forall v : R, p_value (ps s p) = Some (v : numR) -> lo < v < hi ->
       exists u s', unbounded_get p s = (s, Ok (u : numR))
         /\ run_op dflt (OUSet p u) s = (s', Ok tt) /\ same_state s s').
Proof.
  intros dflt s p lo hi H Hs Hb Hlt. apply session_Inv in H as I.
  assert (D : defined s p) by (unfold defined; congruence).
  assert (E : forall u : R, run_op dflt (OUSet p (u : numR)) s =
   (log_ev (value_evs (ps s p) p (of_unbounded lo hi u : numR))
      (upd_p p (with_value (of_unbounded lo hi u : numR)) s), Ok tt)).
  { intros u. cbn [run_op]. rewrite (bind_ok _ _ _ _ _ _ _ _ (access_defined dflt p s I D)).
    now apply uset_exact. }
  split; [|split].
  - intros u. rewrite E. eexists _, (of_unbounded lo hi u). split; [reflexivity|].
    cbn [ps log_ev upd_p]. rewrite !upd_same. split; [reflexivity|].
    split; [now apply of_unbounded_inside|]. split; [reflexivity|]. split; [exact Hs|].
    rewrite (uget_exact _ p lo hi (of_unbounded lo hi u)).
    + now rewrite to_of_unbounded.
    + cbn. now rewrite upd_same.
    + cbn. now rewrite upd_same.
    + cbn. now rewrite upd_same.
  - intros u w s1 s2 v1 v2 Huw E1 E2. rewrite E in E1, E2.
    injection E1 as <-. injection E2 as <-. cbn. rewrite !upd_same. cbn.
    intros [= <-] [= <-]. now apply of_unbounded_increasing.
  - intros v Hv Hin. exists (to_unbounded lo hi v). eexists.
    split; [now apply uget_exact|]. rewrite E. split; [reflexivity|].
    constructor; try reflexivity. intros q. cbn. unfold upd.
    destruct (Nat.eqb_spec q p) as [->|]; [|reflexivity].
    rewrite of_to_unbounded by assumption. destruct (ps s p); cbn in *. now subst.
Qed.
