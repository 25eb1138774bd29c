(** Vocabulary for statements about predictors and scores. *)

From Coq Require Import ZArith List Bool Arith Reals.
From Verif Require Import Exn PieModel PieGridModel GaussModel Instances.
Import ListNotations.

Section Spec.
Context {N : num} {U : user N}.

(** What instance i sees as locations, values and sigmas of predictor k. *)
Definition seen (w : world N U) (i k : nat) : obj N * obj N * obj N :=
  match hnds w i k with
  | Some h => (hp w (h_locns h), hp w (h_vals h), hp w (h_sigmas h))
  | None => (hp w (AShared k 0), hp w (AShared k 1), hp w (AShared k 2))
  end.

(** Calls that replace data of predictor k of instance i. *)
Definition simulates (i k : nat) (o : gop N) : Prop :=
  match o with
  | GSim j l _ _ | GSim1 j l _ _ _ | GAddSim j l _ _ _ _ => j = i /\ l = k
  | _ => False
  end.

(** Instance i with nothing remembered from earlier evaluations: the memory
    of its hook is as at creation, no predictions are stored, and on_use is
    not noted as done.  Parameters and data are those of w. *)
Definition forgotten (w : world N U) (i : nat) : world N U :=
  World (hp w) (nexta w)
    (upd (hnds w) i (fun k => match hnds w i k with
                              | Some h => Some (Hnd (h_locns h) (h_vals h) (h_sigmas h)
                                                    (h_ndata h) (h_globals h) None)
                              | None => None
                              end))
    (pie w) (upd (cache w) i (c0 U)) (upd (uses w) i false) (draws w).

(** The hook computes what it stores from the parameters alone, and only
    raises depending on them. *)
Definition memoryless : Prop :=
  forall e c c', on_use U e c = on_use U e c'.

(** The predictions a user's model makes at locations xs. *)
Definition predictions (e : nat -> option N) (c : C U) (xs : list N) : list N :=
  match signals U e c xs with
  | Some l => l
  | None => map (signal U e c) xs
  end.
End Spec.
Arguments memoryless {N} U.

Open Scope R_scope.

(** Sum of squared weighted residuals of values vs against predictions qs. *)
Fixpoint chi2 (vs qs ss : list R) : R :=
  match vs, qs, ss with
  | v :: vs', q :: qs', s :: ss' => ((v - q) / s) ^ 2 + chi2 vs' qs' ss'
  | _, _, _ => 0
  end.

Definition Rsum (l : list R) : R := fold_right Rplus 0 l.

Section RealSpec.
Context {U : user numR}.

(** Data of one predictor that the statistics can be computed from. *)
Definition regular (e : nat -> option numR) (c : C U) (d : obj numR * obj numR * obj numR) : Prop :=
  let '(x, v, s) := d in
  o_kind v = NdArray /\ length (o_elems s) = length (o_elems v)
  /\ length (predictions e c (o_elems x)) = length (o_elems v).

Definition chi2_of (e : nat -> option numR) (c : C U) (d : obj numR * obj numR * obj numR) : R :=
  let '(x, v, s) := d in chi2 (o_elems v) (predictions e c (o_elems x)) (o_elems s).
End RealSpec.
