(** Property theorems about parameters, stepping and grids (C01-C08, C10, C11,
    C14, C15).  Examples use integer arithmetic where something is computed. *)

From Coq Require Import ZArith List Bool Arith Reals Lra.
From Verif Require Import Exn PieModel PieSpec PieGridModel PieGridSpec Instances PieRealSpec
  PieLemmas PieLemmas2 PieGridLemmas2 PieRealGrid PieFinal PieEnds.
Import ListNotations.
Local Open Scope nat_scope.

Local Notation dz := (fun _ : nat => Some (1%Z : numZ)).
Local Notation z0 := (@st0 numZ).
Local Notation z n := (n%Z : numZ).
Local Notation dr := (fun _ : nat => Some (1%R : numR)).

(** The outcome of a computation, without writing out the state. *)
Local Lemma outcome : forall A B (x : A * B) r, snd x = r -> x = (fst x, r).
Proof. intros A B [a b] r <-. reflexivity. Qed.

(** ** C01 *)
Theorem C01_status_lists : forall (N : num) (dflt : nat -> option N) (s : st N),
  session dflt s -> lists_match_status s.
Proof. exact @session_lists. Qed.
Print Assumptions C01_status_lists.

(** three parameters, one of each kind, after a rejected call *)
Example C01_example : exists s : st numZ, session dz s
  /\ fixedl s = [0] /\ varyl s = [2] /\ stepl s = [1]
  /\ snd (run_op dz (OSetValue 2 (20%Z : numZ)) s) = Err ParamRangeError.
Proof.
  exists (run dz [OAssign 0 (Some (z 5)); OLinStep 1 (Some (z 0)) (Some (z 4)) 3; OAccess 2;
     OVary 2 (Some (z 3)) (Some (z 1)) (Some (z 0, z 10)); OSetValue 2 (z 20)] z0).
  split; [apply run_session; constructor|]. now vm_compute.
Qed.

(** ** C02 *)
Theorem C02_rejected_assignment : forall (N : num) (dflt : nat -> option N) (s s' : st N) p o e,
  session dflt s -> defined s p -> plain_assignment p o ->
  run_op dflt o s = (s', Err e) -> s' = s.
Proof. exact @rejected. Qed.
Print Assumptions C02_rejected_assignment.

Theorem C02_refused_step : forall (N : num) (dflt : nat -> option N) (s s' : st N) p o e,
  session dflt s -> defined s p -> o = ONext p \/ o = OPrev p ->
  run_op dflt o s = (s', Err e) -> e = ParamError \/ e = ParamRangeError -> s' = s.
Proof. exact @refused_step. Qed.
Print Assumptions C02_refused_step.

Theorem C02_rejected_ends : forall (N : num) (dflt : nat -> option N) (s s' : st N) p lo hi n,
  session dflt s -> defined s p ->
  (run_op dflt (OLinStep p lo hi n) s = (s', Err ParamRangeError) -> s' = s) /\
  (forall e, run_op dflt (OLogStep p lo hi n) s = (s', Err e) ->
     e = ParamRangeError \/ e = ValueError -> s' = s).
Proof. exact @rejected_ends. Qed.
Print Assumptions C02_rejected_ends.

(** a varying parameter with range 0..10: 20 is refused by set_value, fix and
    linstep *)
Example C02_example : let s := run dz [OAccess 0;
     OVary 0 (Some (z 3)) (Some (z 1)) (Some (z 0, z 10))] z0 in
  defined s 0
  /\ snd (run_op dz (OSetValue 0 (20%Z : numZ)) s) = Err ParamRangeError
  /\ snd (run_op dz (OFix 0 (Some (20%Z : numZ))) s) = Err ParamRangeError
  /\ snd (run_op dz (OLinStep 0 (Some (20%Z : numZ)) (Some (5%Z : numZ)) 3) s) = Err ParamRangeError
  /\ snd (run_op dz (ONext 0) s) = Err ParamError.
Proof. vm_compute. repeat split; discriminate. Qed.

(** vary with a start outside the range raises but leaves the parameter
    varying: the status and two lists have changed. *)
Theorem C02_vary_refuted : exists (s s' : st numZ) p,
  session dz s /\ defined s p
  /\ run_op dz (OVary p (Some (20%Z : numZ)) (Some (1%Z : numZ)) None) s = (s', Err ParamRangeError)
  /\ p_status (ps s p) = Fixed /\ p_status (ps s' p) = Varying
  /\ In p (fixedl s) /\ ~ In p (fixedl s').
Proof.
  exists (run dz [OAssign 0 (Some (z 5)); ORange 0 (z 0) (z 10)] z0). eexists. exists 0.
  split; [apply run_session; constructor|]. split; [vm_compute; discriminate|].
  split; [apply outcome; vm_compute; reflexivity|]. split; [vm_compute; reflexivity|].
  split; [vm_compute; reflexivity|]. split; [vm_compute; now left|]. vm_compute. intros [].
Qed.
Print Assumptions C02_vary_refuted.

(** ** C03 *)
Theorem C03_refuted : exists (dflt : nat -> option numZ) (s : st numZ) p (lo hi v : numZ),
  session dflt s /\ p_bnd (ps s p) = Some (lo, hi) /\ p_value (ps s p) = Some v
  /\ ~ (leb numZ lo v = true /\ leb numZ v hi = true).
Proof.
  exists dz, (run dz [OAssign 0 (Some (z 50)); ORange 0 (z 0) (z 10)] z0), 0, 0%Z, 10%Z, 50%Z.
  split; [apply run_session; constructor|]. split; [vm_compute; reflexivity|]. split; [vm_compute; reflexivity|].
  intros [_ K]. discriminate.
Qed.
Print Assumptions C03_refuted.

Theorem C03_in_range_once_set : forall (dflt : nat -> option numR) (s s0 : st numR) p o (lo hi : R) l,
  session dflt s -> gives_value p o -> run_op dflt o s = (s0, Ok tt) ->
  p_bnd (ps s0 p) = Some ((lo, hi) : numR * numR) -> Forall (keeps_range p) l ->
  in_range s0 p lo hi /\ in_range (run dflt l s0) p lo hi.
Proof. exact session_range. Qed.
Print Assumptions C03_in_range_once_set.

(** range 0..10 declared after the value 1, then fix(1), linear steps and two
    steps forward *)
Example C03_example : exists s0 : st numR,
  run_op dr (OFix 0 (Some (1%R : numR))) (run dr [OAccess 0; ORange 0 (0%R : numR) (10%R : numR)] st0)
    = (s0, Ok tt)
  /\ p_bnd (ps s0 0) = Some ((0%R, 10%R) : numR * numR)
  /\ Forall (keeps_range 0) [OLinStep 0 (Some (2%R : numR)) (Some (4%R : numR)) 3; ONext 0; ONext 0].
Proof.
  assert (A : vmin (N := numR) 0%R 10%R = 0%R).
  { unfold vmin. cbn. assert (K : Rltb 10 0 = false) by (apply Rltb_false; lra). now rewrite K. }
  assert (B : vmax (N := numR) 0%R 10%R = 10%R).
  { unfold vmax. cbn. assert (K : Rltb 0 10 = true) by (apply Rltb_spec; lra). now rewrite K. }
  assert (C : within (1%R : numR) ((0%R, 10%R) : numR * numR) = true).
  { unfold within. cbn. apply andb_true_iff. split; apply Rleb_spec; lra. }
  eexists. split; [apply outcome|split].
  - cbn -[vmin vmax within Rltb Rleb]. rewrite A, B, C. reflexivity.
  - cbn -[vmin vmax within Rltb Rleb]. rewrite A, B, C. reflexivity.
  - repeat constructor; cbn; intros; try split; try discriminate.
Qed.

(** ** C04 *)
Theorem C04_linear_steps : forall (dflt : nat -> option numR) (s s0 : st numR) p (lo hi : R) n l,
  session dflt s -> run_op dflt (OLinStep p (Some (lo : numR)) (Some (hi : numR)) n) s = (s0, Ok tt) ->
  (2 <= n)%Z -> Forall (leaves_steps p) l ->
  at_step s0 p 0 lo /\
  exists k, (0 <= k < n)%Z /\ at_step (run dflt l s0) p k (lin_value lo hi n k).
Proof. exact session_linstep. Qed.
Print Assumptions C04_linear_steps.

Theorem C04_linear_moves : forall (dflt : nat -> option numR) (s s0 : st numR) p (lo hi : R) n l k t,
  session dflt s -> run_op dflt (OLinStep p (Some (lo : numR)) (Some (hi : numR)) n) s = (s0, Ok tt) ->
  (2 <= n)%Z -> Forall (leaves_steps p) l -> t = run dflt l s0 -> p_num (ps t p) = Some k ->
  (if (k <? n - 1)%Z
   then exists s1 s2, run_op dflt (ONext p) t = (s1, Ok tt)
          /\ at_step s1 p (k + 1) (lin_value lo hi n (k + 1))
          /\ run_op dflt (OPrev p) s1 = (s2, Ok tt) /\ same_state t s2
   else run_op dflt (ONext p) t = (t, Err ParamRangeError))
  /\ (if (0 <? k)%Z
   then exists s1, run_op dflt (OPrev p) t = (s1, Ok tt)
          /\ at_step s1 p (k - 1) (lin_value lo hi n (k - 1))
   else run_op dflt (OPrev p) t = (t, Err ParamRangeError))
  /\ (exists s1, run_op dflt (OFirst p) t = (s1, Ok tt) /\ at_step s1 p 0 lo)
  /\ (exists s1, run_op dflt (OLast p) t = (s1, Ok tt) /\ at_step s1 p (n - 1) hi).
Proof. exact session_linstep_moves. Qed.
Print Assumptions C04_linear_moves.

Example C04_example : exists s0 : st numR,
  run_op dr (OLinStep 0 (Some (2%R : numR)) (Some (4%R : numR)) 5) st0 = (s0, Ok tt)
  /\ Forall (@leaves_steps numR 0) [ONext 0; ONext 0; OPrev 0; OLast 0; ONext 0; OGridStep; OFirst 0].
Proof. eexists. split; [apply outcome; reflexivity|]. repeat constructor. Qed.

Theorem C04_ends_exact : forall (N : num) (dflt : nat -> option N) (s s0 : st N) p (lo hi : N) n l,
  session dflt s -> run_op dflt (OLinStep p (Some lo) (Some hi) n) s = (s0, Ok tt) ->
  (2 <= n)%Z -> Forall (leaves_steps p) l ->
  steps_between (run dflt l s0) p lo hi n.
Proof. exact lin_exact_ends. Qed.
Print Assumptions C04_ends_exact.

(** integer arithmetic, in which the increment of 0..10 in 4 steps is rounded
    down to 3 *)
Example C04_ends_example :
  exists s0, run_op dz (OLinStep 0 (Some (z 0)) (Some (z 10)) 4) z0 = (s0, Ok tt)
  /\ Forall (@leaves_steps numZ 0) [ONext 0; ONext 0; ONext 0]
  /\ p_value (ps (run dz [ONext 0; ONext 0] s0) 0) = Some (z 6)
  /\ p_value (ps (run dz [ONext 0; ONext 0; ONext 0] s0) 0) = Some (z 10).
Proof.
  eexists. split; [apply outcome; reflexivity|].
  split; [repeat constructor|]. split; reflexivity.
Qed.

(** ** C05 *)
Theorem C05_log_steps : forall (dflt : nat -> option numR) (s s0 : st numR) p (lo hi : R) n l,
  session dflt s -> run_op dflt (OLogStep p (Some (lo : numR)) (Some (hi : numR)) n) s = (s0, Ok tt) ->
  (2 <= n)%Z -> Forall (leaves_steps p) l ->
  (0 < lo * hi)%R /\ at_step s0 p 0 lo /\
  exists k, (0 <= k < n)%Z /\ at_step (run dflt l s0) p k (log_value lo hi n k).
Proof. exact session_logstep. Qed.
Print Assumptions C05_log_steps.

Theorem C05_log_moves : forall (dflt : nat -> option numR) (s s0 : st numR) p (lo hi : R) n l k t,
  session dflt s -> run_op dflt (OLogStep p (Some (lo : numR)) (Some (hi : numR)) n) s = (s0, Ok tt) ->
  (2 <= n)%Z -> Forall (leaves_steps p) l -> t = run dflt l s0 -> p_num (ps t p) = Some k ->
  (if (k <? n - 1)%Z
   then exists s1 s2, run_op dflt (ONext p) t = (s1, Ok tt)
          /\ at_step s1 p (k + 1) (log_value lo hi n (k + 1))
          /\ run_op dflt (OPrev p) s1 = (s2, Ok tt) /\ same_state t s2
   else run_op dflt (ONext p) t = (t, Err ParamRangeError))
  /\ (if (0 <? k)%Z
   then exists s1, run_op dflt (OPrev p) t = (s1, Ok tt)
          /\ at_step s1 p (k - 1) (log_value lo hi n (k - 1))
   else run_op dflt (OPrev p) t = (t, Err ParamRangeError))
  /\ (exists s1, run_op dflt (OFirst p) t = (s1, Ok tt) /\ at_step s1 p 0 lo)
  /\ (exists s1, run_op dflt (OLast p) t = (s1, Ok tt) /\ at_step s1 p (n - 1) hi).
Proof. exact session_logstep_moves. Qed.
Print Assumptions C05_log_moves.

Theorem C05_ends_exact : forall (N : num) (dflt : nat -> option N) (s s0 : st N) p (lo hi : N) n l,
  session dflt s -> run_op dflt (OLogStep p (Some lo) (Some hi) n) s = (s0, Ok tt) ->
  eqb N hi (ofZ N 0) = false -> (2 <= n)%Z -> Forall (leaves_steps p) l ->
  steps_between (run dflt l s0) p lo hi n.
Proof. exact log_exact_ends. Qed.
Print Assumptions C05_ends_exact.

Example C05_ends_example :
  exists s0, run_op dz (OLogStep 0 (Some (z 2)) (Some (z 9)) 3) z0 = (s0, Ok tt)
  /\ eqb numZ (z 9) (ofZ numZ 0) = false
  /\ Forall (@leaves_steps numZ 0) [ONext 0; ONext 0]
  /\ p_value (ps (run dz [ONext 0; ONext 0] s0) 0) = Some (z 9).
Proof.
  eexists. split; [apply outcome; reflexivity|]. split; [reflexivity|].
  split; [repeat constructor|]. reflexivity.
Qed.

Theorem C05_signs_rejected : forall (dflt : nat -> option numR) (s : st numR) p (lo hi : R) n,
  session dflt s -> defined s p -> (lo * hi <= 0)%R ->
  exists e, run_op dflt (OLogStep p (Some (lo : numR)) (Some (hi : numR)) n) s = (s, Err e)
    /\ (e = ValueError \/ e = ParamRangeError).
Proof. exact logstep_signs. Qed.
Print Assumptions C05_signs_rejected.

(** steps 1, 2, 4 *)
Example C05_example : exists s0 : st numR,
  run_op dr (OLogStep 0 (Some (1%R : numR)) (Some (4%R : numR)) 3) st0 = (s0, Ok tt)
  /\ log_value 1 4 3 1 = 2%R.
Proof.
  assert (A : Rleb (1 * 4) 0 = false) by (apply Rleb_false; lra).
  assert (B : Reqb 1 0 = false) by (apply Reqb_false; lra).
  assert (C : Reqb 4 0 = false) by (apply Reqb_false; lra).
  eexists. split; [apply outcome|].
  - cbn -[Rleb Reqb]. rewrite A. unfold truthy. cbn -[Rleb Reqb]. rewrite B, C. reflexivity.
  - unfold log_value, Rpower. replace (4 / 1)%R with (2 * 2)%R by field.
    rewrite ln_mult by lra. change (IZR 1 / IZR (3 - 1))%R with (1 / 2)%R.
    replace (1 / 2 * (ln 2 + ln 2))%R with (ln 2) by field. rewrite exp_ln; lra.
Qed.

(** ** C06 *)
Theorem C06_grid_order : forall (N : num) (dflt : nat -> option N) (s : st N) ns,
  session dflt s -> stepl s <> [] -> at_start s ->
  (forall p, In p (stepl s) -> steppable (ps s p)) -> sizes s ns ->
  exists l e inds, trail s l e /\ Forall2 indices l inds
    /\ NoDup inds /\ (forall ind, In ind inds <-> in_grid ns ind)
    /\ consecutive neighbours inds
    /\ at_start e /\ same_setup s e
    /\ (forall t, In t l -> same_setup s t /\ forall q, ~ In q (stepl s) -> ps t q = ps s q)
    /\ (forall q, ~ In q (stepl s) -> ps e q = ps s q).
Proof. exact @grid_order. Qed.
Print Assumptions C06_grid_order.

(** a 3 by 2 grid *)
Example C06_example : let s := run dz [OLinStep 0 (Some (z 0)) (Some (z 4)) 3;
     OLinStep 1 (Some (z 7)) (Some (z 9)) 2] z0 in
  stepl s = [0; 1] /\ at_start s /\ (forall p, In p (stepl s) -> steppable (ps s p))
  /\ sizes s [3; 2].
Proof.
  cbv zeta. match goal with |- stepl ?x = _ /\ _ => set (s := x) end.
  assert (E : stepl s = [0; 1]) by (vm_compute; reflexivity). unfold at_start. rewrite E.
  split; [reflexivity|]. split; [|split; [|vm_compute; reflexivity]].
  - intros p [<-|[<-|[]]]; vm_compute; auto.
  - intros p [<-|[<-|[]]]; vm_compute;
      (split; [eexists; split; [reflexivity|discriminate]|discriminate]).
Qed.

(** ** C07 *)
Theorem C07_grid_scores : forall preds scoref minimiser sns unb
    (dflt : nat -> option numR) l (s : st numR) (f : nat -> Z -> R) ns fuel,
  s = run dflt l st0 -> varyl s = [] -> stepl s <> [] -> at_start s ->
  (forall p, In p (stepl s) -> exists n, declared dflt l p (f p) n) ->
  sizes s ns -> (ncells ns <= fuel)%nat ->
  exists e r, do_grid preds scoref minimiser sns unb fuel false s = (e, Ok r) /\ at_start e
    /\ g_shape (gr_grid r) = map Z.of_nat ns
    /\ (forall ind, in_grid ns ind -> exists vals,
          values_at s f ind vals /\ cell (gr_grid r) ind = Some (scoref vals))
    /\ (forall ind v, cell (gr_grid r) ind = Some v -> in_grid ns ind).
Proof. exact grid_scores_R. Qed.
Print Assumptions C07_grid_scores.

Theorem C07_grid_optima : forall preds scoref minimiser sns unb
    (dflt : nat -> option numR) l (s : st numR) (f : nat -> Z -> R) ns fuel vg e r,
  s = run dflt l st0 -> varyl s <> [] -> stepl s <> [] -> at_start s ->
  (forall p, In p (stepl s) -> exists n, declared dflt l p (f p) n) ->
  sizes s ns -> (ncells ns <= fuel)%nat ->
  do_grid preds scoref minimiser sns unb fuel vg s = (e, Ok r) ->
  at_start e /\ g_shape (gr_grid r) = map Z.of_nat ns
  /\ (forall ind, in_grid ns ind -> exists t t' params ext,
        optimize preds scoref minimiser sns unb t = (t', Ok (params, ext))
        /\ stepl t = stepl s /\ varyl t = varyl s /\ fixedl t = fixedl s
        /\ (forall p, In p (fixedl s) -> ps t p = ps s p)
        /\ (forall i p k, nth_error (stepl s) i = Some p -> nth_error ind i = Some k ->
              p_value (ps t p) = Some (f p k : numR))
        /\ cell (gr_grid r) ind = Some ext
        /\ (vg = true -> In (ind, params) (gr_vec r)))
  /\ exists m im before after, gr_opt r = Some (m, im) /\ cell (gr_grid r) im = Some m
        /\ snake ns = before ++ im :: after
        /\ (forall ind v, In ind before -> cell (gr_grid r) ind = Some v -> better sns m v = true)
        /\ (forall ind v, In ind after -> cell (gr_grid r) ind = Some v -> better sns v m = false).
Proof. exact grid_opt_R. Qed.
Print Assumptions C07_grid_optima.

(** two stepping parameters, 5 and 3 steps *)
Example C07_example :
  let l := [OLinStep 0 (Some (2%R : numR)) (Some (4%R : numR)) 5;
            OLinStep 1 (Some (0%R : numR)) (Some (1%R : numR)) 3] in
  let s := run dr l st0 in
  varyl s = [] /\ stepl s = [0; 1] /\ at_start s /\ sizes s [5; 3]
  /\ declared dr l 0 (lin_value 2 4 5) 5 /\ declared dr l 1 (lin_value 0 1 3) 3.
Proof.
  cbv zeta. match goal with |- varyl ?x = _ /\ _ => set (s := x) end.
  assert (E : stepl s = [0; 1]) by reflexivity. unfold at_start. rewrite E.
  split; [reflexivity|]. split; [reflexivity|]. split.
  { intros p [<-|[<-|[]]]; repeat split. }
  split; [reflexivity|]. split.
  - exists [], (OLinStep 0 (Some (2%R : numR)) (Some (4%R : numR)) 5),
      [OLinStep 1 (Some (0%R : numR)) (Some (1%R : numR)) 3], 2%R, 4%R.
    repeat split; auto; try discriminate. repeat constructor; discriminate.
  - exists [OLinStep 0 (Some (2%R : numR)) (Some (4%R : numR)) 5],
      (OLinStep 1 (Some (0%R : numR)) (Some (1%R : numR)) 3), [], 0%R, 1%R.
    repeat split; auto; discriminate.
Qed.

(** the same with a varying parameter, computed: scores are the sum of the
    values and the "minimiser" tries one point *)
Local Definition sum3 (vals : nat -> option numZ) : numZ :=
  match vals 0, vals 1, vals 2 with
  | Some a, Some b, Some c => (a + b + c)%Z
  | _, _, _ => (-1)%Z
  end.
Example C07_example_varying :
  let s := run dz [OLinStep 0 (Some (z 0)) (Some (z 4)) 3; OLinStep 1 (Some (z 7)) (Some (z 9)) 2;
     OAccess 2; OVary 2 (Some (z 3)) (Some (z 1)) (Some (z 0, z 10))] z0 in
  varyl s = [2] /\
  match snd (do_grid [0] sum3 (fun s1 a _ => ([a], (a, sum3 (values s1)))) Minimize false 6 true s) with
  | Ok r => length (g_cells (gr_grid r)) = 6 /\ cell (gr_grid r) [2; 1]%Z = Some 16%Z
            /\ gr_opt r = Some (10%Z, [0%Z; 0%Z])
  | Err _ => False
  end.
Proof. vm_compute. repeat split. Qed.

(** ** C08 *)
(** After one next_step the cell (0,0) is never filled: it stays NaN. *)
Theorem C08_refuted : exists (s e : st numZ) r ns ind,
  session dz s /\ stepl s <> [] /\ (forall p, In p (stepl s) -> steppable (ps s p)) /\ sizes s ns
  /\ in_grid ns ind
  /\ do_grid [0] sum3 (fun _ a _ => ([], (a, 0%Z : numZ))) Minimize false (ncells ns) false s = (e, Ok r)
  /\ cell (gr_grid r) ind = None.
Proof.
  exists (run dz [OLinStep 0 (Some (z 0)) (Some (z 4)) 3; OLinStep 1 (Some (z 7)) (Some (z 9)) 2;
     OGridStep] z0).
  eexists _, _. exists [3; 2], [0%Z; 0%Z].
  split; [apply run_session; constructor|]. split; [vm_compute; discriminate|]. split.
  { match goal with |- forall p, In p (stepl ?x) -> _ => set (s := x) end.
    assert (E : stepl s = [0; 1]) by (vm_compute; reflexivity). rewrite E.
    intros p [<-|[<-|[]]]; vm_compute;
      (split; [eexists; split; [reflexivity|discriminate]|discriminate]). }
  split; [vm_compute; reflexivity|].
  split; [repeat (constructor; [split; [discriminate|reflexivity]|]); constructor|].
  split; [apply outcome; vm_compute; reflexivity|vm_compute; reflexivity].
Qed.
Print Assumptions C08_refuted.

(** ** C10 *)
Theorem C10_all_changes_announced : forall (N : num) (dflt : nat -> option N) (s : st N) o,
  session dflt s -> ~ adds_listener o -> announced s (fst (run_op dflt o s)).
Proof. exact @announced_ops. Qed.
Print Assumptions C10_all_changes_announced.

Theorem C10_value_change_announced_once : forall (N : num) (dflt : nat -> option N) (s s' : st N) p o,
  session dflt s -> defined s p -> revalues p o -> run_op dflt o s = (s', Ok tt) ->
  exists v, p_value (ps s' p) = Some v /\ trace s' = trace s ++ tell_value p (p_lst (ps s p)) v.
Proof. exact @announced_once. Qed.
Print Assumptions C10_value_change_announced_once.

Theorem C10_fix_announced_once : forall (N : num) (dflt : nat -> option N) (s s' : st N) p v,
  session dflt s -> defined s p -> p_status (ps s p) <> Stepping ->
  run_op dflt (OFix p (Some v)) s = (s', Ok tt) ->
  p_value (ps s' p) = Some v /\
  trace s' = trace s ++ tell_value p (p_lst (ps s p)) v
     ++ tell_status p (p_lst (ps s p)) (p_status (ps s p), Fixed).
Proof. exact @announced_fix. Qed.
Print Assumptions C10_fix_announced_once.

Theorem C10_listener_registered_once : forall (N : num) (dflt : nat -> option N) (s : st N) p l,
  session dflt s -> defined s p ->
  (In l (p_lst (ps s p)) -> run_op dflt (OAddListener p l) s = (s, Ok tt)) /\
  (~ In l (p_lst (ps s p)) -> exists s', run_op dflt (OAddListener p l) s = (s', Ok tt)
     /\ (forall q, ps s' q = if Nat.eqb q p then with_lst (p_lst (ps s p) ++ [l]) (ps s p) else ps s q)
     /\ trace s' = trace s /\ fixedl s' = fixedl s /\ varyl s' = varyl s /\ stepl s' = stepl s).
Proof. exact @add_listener_once. Qed.
Print Assumptions C10_listener_registered_once.

(** two listeners besides the owner, one registered twice *)
Example C10_example : let s := run dz [OAddListener 0 4; OAddListener 0 2; OAddListener 0 4] z0 in
  p_lst (ps s 0) = [0; 4; 2]
  /\ trace (fst (run_op dz (OFix 0 (Some (z 9))) s)) = trace s ++
       [EvValue 0 0 (Some (z 9)); EvValue 4 0 (Some (z 9)); EvValue 2 0 (Some (z 9));
        EvStatus 0 0 Fixed Fixed; EvStatus 4 0 Fixed Fixed; EvStatus 2 0 Fixed Fixed].
Proof. vm_compute. split; reflexivity. Qed.

(** ** C11 *)
(** del_listener raises whoever is to be removed, and the listener is still
    told of the next change. *)
Theorem C11_always_raises : forall (N : num) (dflt : nat -> option N) (s : st N) p l,
  session dflt s -> defined s p ->
  run_op dflt (ODelListener p l) s = (s, Err AttributeError).
Proof.
  intros N dflt s p l H D. apply PieSession.session_Inv in H. cbn [run_op].
  rewrite (bind_ok _ _ _ _ _ _ _ _ (access_defined dflt p s H D)). reflexivity.
Qed.
Print Assumptions C11_always_raises.

Theorem C11_refuted : exists (s s' : st numZ) p l r, session dz s /\ defined s p /\ In l (p_lst (ps s p))
  /\ run_op dz (ODelListener p l) s = (s', r) /\ In l (p_lst (ps s' p)).
Proof.
  exists (run dz [OAddListener 0 4] z0). eexists. exists 0, 4. eexists.
  split; [apply run_session; constructor|]. split; [vm_compute; discriminate|].
  split; [vm_compute; tauto|]. split; [reflexivity|]. vm_compute. tauto.
Qed.
Print Assumptions C11_refuted.

Example C11_example : let s := run dz [OAddListener 0 4; ODelListener 0 4; OFix 0 (Some (z 9))] z0 in
  nth_error (trace s) 3 = Some (EvValue 4 0 (Some (z 9))).
Proof. reflexivity. Qed.

(** ** C14 *)
Theorem C14_write_back : forall (N : num) (dflt : nat -> option N) (s : st N) names,
  session dflt s ->
  (forall p, In p names -> p_status (ps s p) = Fixed \/ p_status (ps s p) = Varying) ->
  (forall p v b, In p names -> p_value (ps s p) = Some v -> p_bnd (ps s p) = Some b ->
     within v b = true) ->
  exists s', run_op dflt (OSetParams names (fun p => p_value (ps s p))) s = (s', Ok tt)
    /\ same_state s s'.
Proof. exact @write_back. Qed.
Print Assumptions C14_write_back.

Theorem C14_round_trip : forall (N : num) (dflt : nat -> option N) (s : st N) names,
  session dflt s ->
  (forall p, In p names -> p_status (ps s p) = Fixed \/ p_status (ps s p) = Varying) ->
  exists l, get_params dflt names s = (s, Ok l) /\ map fst l = names
    /\ (forall p v, In (p, v) l -> p_value (ps s p) = Some v)
    /\ forall (s2 : st N) pv, session dflt s2 ->
        (forall p v, In (p, v) l -> pv p = Some v) ->
        (forall p, In p names -> p_status (ps s2 p) = Fixed \/ p_status (ps s2 p) = Varying) ->
        (forall p v b, In (p, v) l -> p_bnd (ps s2 p) = Some b -> within v b = true) ->
        exists s3, run_op dflt (OSetParams names pv) s2 = (s3, Ok tt)
          /\ fixedl s3 = fixedl s2 /\ varyl s3 = varyl s2 /\ stepl s3 = stepl s2
          /\ (forall q, info s3 q = info s2 q)
          /\ (forall q, ~ In q names -> ps s3 q = ps s2 q)
          /\ (forall q v, In (q, v) l -> ps s3 q = with_value v (ps s2 q)).
Proof. exact @round_trip. Qed.
Print Assumptions C14_round_trip.

(** saved values 5 and 3, changed to 8 and 9, restored *)
Example C14_example :
  let s := run dz [OAssign 0 (Some (z 5)); OAccess 1;
     OVary 1 (Some (z 3)) (Some (z 1)) (Some (z 0, z 10))] z0 in
  let s2 := run dz [OAssign 0 (Some (z 8)); OSetValue 1 (z 9)] s in
  snd (get_params dz [0; 1] s) = Ok [(0, 5%Z : numZ); (1, 3%Z : numZ)]
  /\ p_value (ps s2 0) = Some (z 8) /\ p_value (ps s2 1) = Some (z 9)
  /\ snd (run_op dz (OSetParams [0; 1] (fun p => if Nat.eqb p 0 then Some (z 5) else Some (z 3))) s2) = Ok tt.
Proof. vm_compute. repeat split. Qed.

(** one value out of range: the earlier assignment stays *)
Theorem C14_atomic_refuted : exists (s s' : st numZ) names pv e p,
  session dz s /\ run_op dz (OSetParams names pv) s = (s', Err e)
  /\ (forall p, In p names -> p_status (ps s p) = Fixed)
  /\ p_value (ps s' p) <> p_value (ps s p).
Proof.
  exists (run dz [OAssign 0 (Some (z 5)); OAssign 1 (Some (z 5)); ORange 1 (z 0) (z 10)] z0).
  eexists. exists [0; 1], (fun _ => Some (z 20)). eexists. exists 0.
  split; [apply run_session; constructor|]. split; [apply outcome; vm_compute; reflexivity|].
  split; [intros p [<-|[<-|[]]]; reflexivity|]. vm_compute. discriminate.
Qed.
Print Assumptions C14_atomic_refuted.

(** ** C15 *)
Theorem C15_unbounded_bijection : forall (dflt : nat -> option numR) (s : st numR) p (lo hi : R),
  session dflt s -> p_status (ps s p) = Varying -> p_bnd (ps s p) = Some ((lo, hi) : numR * numR) ->
  (lo < hi)%R ->
  (forall u : R, exists s' v, run_op dflt (OUSet p (u : numR)) s = (s', Ok tt)
     /\ p_value (ps s' p) = Some (v : numR) /\ (lo < v < hi)%R
     /\ p_bnd (ps s' p) = p_bnd (ps s p) /\ p_status (ps s' p) = Varying
     /\ unbounded_get p s' = (s', Ok (u : numR)))
  /\ (forall u w s1 s2 v1 v2, (u < w)%R -> run_op dflt (OUSet p (u : numR)) s = (s1, Ok tt) ->
       run_op dflt (OUSet p (w : numR)) s = (s2, Ok tt) ->
       p_value (ps s1 p) = Some (v1 : numR) -> p_value (ps s2 p) = Some (v2 : numR) -> (v1 < v2)%R)
  /\ (forall v : R, p_value (ps s p) = Some (v : numR) -> (lo < v < hi)%R ->
       exists u s', unbounded_get p s = (s, Ok (u : numR))
         /\ run_op dflt (OUSet p u) s = (s', Ok tt) /\ same_state s s').
Proof. exact unbounded_bijection. Qed.
Print Assumptions C15_unbounded_bijection.

Example C15_example : exists s : st numR, session dr s /\ p_status (ps s 0) = Varying
  /\ p_bnd (ps s 0) = Some ((0%R, 10%R) : numR * numR) /\ p_value (ps s 0) = Some (1%R : numR).
Proof.
  assert (A : vmin (N := numR) 0%R 10%R = 0%R).
  { unfold vmin. cbn. assert (K : Rltb 10 0 = false) by (apply Rltb_false; lra). now rewrite K. }
  assert (B : vmax (N := numR) 0%R 10%R = 10%R).
  { unfold vmax. cbn. assert (K : Rltb 0 10 = true) by (apply Rltb_spec; lra). now rewrite K. }
  exists (run dr [OAccess 0; OVary 0 None (Some (1%R : numR)) (Some ((0%R, 10%R) : numR * numR))] st0).
  split; [apply run_session; constructor|]. cbn -[vmin vmax]. rewrite A, B. now repeat split.
Qed.
