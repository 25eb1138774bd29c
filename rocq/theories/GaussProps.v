(** Property theorems about predictors and scores (C09, C16, C17).  Examples
    use integer arithmetic where something is computed. *)

From Coq Require Import ZArith List Bool Arith Reals Lra.
From Verif Require Import Exn PieModel PieGridModel Instances GaussModel GaussSpec
  GaussLemmas GaussLemmas2 GaussReal.
Import ListNotations.
Local Open Scope nat_scope.

(** ** C09 *)

(** Any user hook whose result depends on the parameters only: a score is
    the one a fresh instance computes from the same parameters and data,
    whatever was evaluated or assigned before. *)
Theorem C09_score_from_scratch : forall (N : num) (U : user N), memoryless U ->
  forall (w : world N U) m preds i, preds <> [] ->
  snd (score m preds i w) = snd (score m preds i (forgotten w i)).
Proof. exact @score_from_scratch. Qed.
Print Assumptions C09_score_from_scratch.

(** Any user hook at all: one evaluation runs the hook on the current
    parameter values, and the predictions it leaves are those of the user's
    model for these values and the outcome of this very run of the hook. *)
Theorem C09_evaluation_uses_hook : forall (N : num) (U : user N) (w : world N U) i k t,
  snd (chisqr i k w) = Ok t ->
  exists c h, on_use U (env w i) (cache w i) = (c, None)
    /\ cache (fst (chisqr i k w)) i = c
    /\ hnds (fst (chisqr i k w)) i k = Some h
    /\ option_map o_elems (h_prdxns h)
       = Some (predictions (env w i) c (o_elems (fst (fst (seen w i k))))).
Proof. exact @evaluation_uses_hook. Qed.
Print Assumptions C09_evaluation_uses_hook.

(** A straight line through the origin whose slope is doubled by the hook:
    the hook stores twice the value of parameter 0, the signal multiplies. *)
Definition line : user numZ :=
  @User numZ Z 0%Z (fun e _ => (match e 0 with Some v => (2 * v)%Z | None => 0%Z end, None))
       (fun _ _ _ => None) (fun _ c x => (c * x)%Z) (fun _ _ => (-7)%Z).
Definition zdata (k f : nat) : obj numZ :=
  match f with
  | 0 => Obj (N := numZ) NdArray (match k with 0 => [1%Z; 2%Z; 3%Z] | _ => [4%Z] end)
  | 1 => Obj (N := numZ) NdArray (match k with 0 => [5%Z; 6%Z; 7%Z] | _ => [9%Z] end)
  | _ => Obj (N := numZ) NdArray (match k with 0 => [1%Z; 1%Z; 1%Z] | _ => [1%Z] end)
  end.
Definition zmine (n : nat) : obj numZ := Obj (N := numZ) PyList [10%Z; 20%Z; 30%Z].
Definition zrun (l : list (gop numZ)) : world numZ line :=
  grun (U := line) (fun k => Z.of_nat k : numZ) (fun _ => Some (1%Z : numZ)) l (world0 zdata zmine).
Definition zv (v : Z) : op numZ := OAssign 0 (Some (v : numZ)).

(** Evaluate at 1, move to 2, fail a simulation, evaluate again: the hook
    holds a value from the second point, and the score differs from the first. *)
Example C09_example :
  memoryless line
  /\ (let w := zrun [GParam 0 (zv 1); GScore 0 ChisqrInference [0; 1]; GParam 0 (zv 2)] in
      snd (score ChisqrInference [0; 1] 0 w) = Ok (79%Z : numZ)
      /\ snd (score ChisqrInference [0; 1] 0 (forgotten w 0)) = Ok (79%Z : numZ)
      /\ cache w 0 = 2%Z /\ uses w 0 = false)
  /\ (let w := zrun [GParam 0 (zv 1)] in snd (score ChisqrInference [0; 1] 0 w) = Ok (15%Z : numZ)).
Proof. split; [intros e c c'; reflexivity|]. vm_compute. repeat split; reflexivity. Qed.

(** ** C16 *)

(** After any history over any instances and predictors, the original data
    are as they were. *)
Theorem C16_shared_data_unchanged : forall (N : num) (U : user N)
  (data : nat -> nat -> obj N) (noise : nat -> N) (dflt : nat -> option N) (mine : nat -> obj N) l k f,
  hp (grun noise dflt l (world0 (U := U) data mine)) (AShared k f) = data k f.
Proof. exact @shared_data. Qed.
Print Assumptions C16_shared_data_unchanged.

(** An instance that did not itself simulate a predictor sees the original
    data of that predictor, even after localize_data and evaluations. *)
Theorem C16_others_unaffected : forall (N : num) (U : user N)
  (data : nat -> nat -> obj N) (noise : nat -> N) (dflt : nat -> option N) (mine : nat -> obj N) l i k,
  Forall (fun o => ~ simulates i k o) l ->
  seen (grun noise dflt l (world0 (U := U) data mine)) i k = (data k 0, data k 1, data k 2).
Proof. exact @not_simulating. Qed.
Print Assumptions C16_others_unaffected.

(** Instance 1 simulates new data for predictor 0, instance 0 only localizes
    and evaluates, and simulates the other predictor. *)
Definition c16_history : list (gop numZ) :=
  [GParam 0 (zv 1); GParam 1 (zv 3); GLocalize 0 0; GSim 1 0 None None;
   GSim1 1 0 2 (Some (8%Z : numZ)) None; GScore 0 ChisqrInference [0; 1]; GSim 0 1 None None].
Example C16_example :
  Forall (fun o => ~ simulates 0 0 o) c16_history
  /\ snd (fst (seen (zrun c16_history) 1 0)) = Obj (N := numZ) NdArray [6%Z; 13%Z; 51%Z]
  /\ snd (fst (seen (zrun c16_history) 0 0)) = Obj (N := numZ) NdArray [5%Z; 6%Z; 7%Z].
Proof.
  split; [unfold c16_history; repeat constructor; cbn; intros H; try destruct H; discriminate|].
  vm_compute. split; reflexivity.
Qed.

(** A list passed as new locations is kept, not copied; sim1 then writes
    into it. *)
Theorem C16_caller_list_refuted : exists (N : num) (U : user N)
  (data : nat -> nat -> obj N) (noise : nat -> N) (dflt : nat -> option N) (mine : nat -> obj N) l n,
  let w := grun noise dflt l (world0 (U := U) data mine) in
  hp w (ACaller n) <> mine n
  /\ l = [GParam 0 (OAssign 0 (dflt 0)); GSim 0 0 (Some n) None;
          GSim1 0 0 0%Z (Some (ofZ N 99)) None].
Proof.
  exists numZ, line, zdata, (fun k => Z.of_nat k : numZ), (fun _ => Some (1%Z : numZ)), zmine.
  eexists. exists 0. split; [|reflexivity]. vm_compute. discriminate.
Qed.
Print Assumptions C16_caller_list_refuted.

(** ** C17 *)

(** The statistics of one predictor. *)
Theorem C17_chisqr_and_log_like : forall (U : user numR) (w : world numR U) i k c,
  on_use U (env w i) (cache w i) = (c, None) -> regular (env w i) c (seen w i k) ->
  snd (chisqr i k w) = Ok (chi2_of (env w i) c (seen w i k))
  /\ snd (log_like i k w) = Ok ((- (1/2) * chi2_of (env w i) c (seen w i k))%R : numR).
Proof. exact @chisqr_R. Qed.
Print Assumptions C17_chisqr_and_log_like.

(** It is not negative, and zero just when every value is predicted exactly. *)
Theorem C17_chisqr_nonneg : forall (U : user numR) (w : world numR U) i k c (t : R),
  on_use U (env w i) (cache w i) = (c, None) -> regular (env w i) c (seen w i k) ->
  snd (chisqr i k w) = Ok (t : numR) -> (0 <= t)%R.
Proof. exact @chisqr_nonneg. Qed.
Print Assumptions C17_chisqr_nonneg.

Theorem C17_chisqr_zero : forall (U : user numR) (w : world numR U) i k c (t : R) x v s,
  on_use U (env w i) (cache w i) = (c, None) -> seen w i k = (x, v, s) -> regular (env w i) c (x, v, s) ->
  Forall (fun u => u <> 0%R) (o_elems s) ->
  snd (chisqr i k w) = Ok (t : numR) ->
  (t = 0%R <-> predictions (env w i) c (o_elems x) = o_elems v).
Proof. exact @chisqr_zero. Qed.
Print Assumptions C17_chisqr_zero.

(** The score of an inference is the sum over its predictors. *)
Theorem C17_score : forall (U : user numR), memoryless U ->
  forall (w : world numR U) m preds i c,
  on_use U (env w i) (c0 U) = (c, None) -> preds <> [] ->
  Forall (fun k => regular (env w i) c (seen w i k)) preds ->
  snd (score m preds i w) = Ok ((
    let t := Rsum (map (fun k => chi2_of (env w i) c (seen w i k)) preds) in
    match m with
    | ChisqrInference => t
    | MaxLikeInference => - (1/2) * t
    | BayesianInference => - (1/2) * t + log_prior U (env w i) c
    end)%R : numR).
Proof. exact @score_R. Qed.
Print Assumptions C17_score.

(** So the best parameter point by chi-square is the best by likelihood:
    any hook, any two worlds (two parameter points of one inference). *)
Theorem C17_same_optimum : forall (U : user numR) (w w' : world numR U) preds i (x x' : R),
  snd (score ChisqrInference preds i w) = Ok (x : numR) ->
  snd (score ChisqrInference preds i w') = Ok (x' : numR) ->
  exists y y' : R, snd (score MaxLikeInference preds i w) = Ok (y : numR)
    /\ snd (score MaxLikeInference preds i w') = Ok (y' : numR)
    /\ (x <= x' <-> y >= y')%R.
Proof. exact @same_optimum. Qed.
Print Assumptions C17_same_optimum.

(** The line above over the reals, with two predictors, one of them wrong by
    two sigmas and the other exact. *)
Definition rline : user numR :=
  @User numR R 0%R (fun e _ => (match e 0 with Some v => (2 * v)%R | None => 0%R end, None))
       (fun _ _ _ => None) (fun _ c x => (c * x)%R) (fun _ _ => (-7)%R).
Definition rdata (k f : nat) : obj numR :=
  Obj (N := numR) NdArray (match f with
               | 0 => match k with 0 => [1%R; 2%R] | _ => [3%R] end
               | 1 => match k with 0 => [2%R; 5%R] | _ => [6%R] end
               | _ => match k with 0 => [1%R; (1/2)%R] | _ => [2%R] end
               end).
Definition rw : world numR rline :=
  grun (fun _ => 0%R : numR) (fun _ => Some (1%R : numR))
    [GParam 0 (OAssign 0 (Some (1%R : numR)))] (world0 rdata (fun _ => Obj PyList [])).
Lemma rw_env : env rw 0 0 = Some (1%R : numR).
Proof. cbn. reflexivity. Qed.
Example C17_example :
  memoryless rline /\ on_use rline (env rw 0) (c0 rline) = ((2 * 1)%R, None)
  /\ Forall (fun k => regular (env rw 0) ((2 * 1)%R : C rline) (seen rw 0 k)) [0; 1]
  /\ snd (score ChisqrInference [0; 1] 0 rw) = Ok (4%R : numR)
  /\ snd (score BayesianInference [0; 1] 0 rw) = Ok ((- 9)%R : numR).
Proof.
  assert (M : memoryless rline) by (intros e c c'; reflexivity).
  assert (H : on_use rline (env rw 0) (c0 rline) = ((2 * 1)%R, None)).
  { cbn [on_use rline]. rewrite rw_env. reflexivity. }
  assert (F : Forall (fun k => regular (env rw 0) ((2 * 1)%R : C rline) (seen rw 0 k)) [0; 1])
    by (repeat constructor).
  split; [exact M|]. split; [exact H|]. split; [exact F|].
  split; (etransitivity; [apply (C17_score rline M rw _ [0; 1] 0 _ H);
    [discriminate|exact F]|]); cbn; f_equal; lra.
Qed.
