(** Properties of the numerical derivatives. *)

From Coq Require Import List Bool Arith Reals Lra Lia.
From Verif Require Import Exn Instances CountSpec BaModel BaSpec ObsModel ObsSpec ObsLemmas ObsLemmas2 ObsLemmas3 ObsLemmas4 ObsLemmas5 ObsLemmas6 ObsLemmas7 ObsCases.
Import ListNotations.
Open Scope R_scope.

(** C49: for every quadratic log likelihood whose negative Hessian has a
    positive diagonal, at a maximum or not, with non-zero steps and any number
    of extrapolations, obsinfo returns the negative Hessian and zero errors,
    and leaves the parameters as they were. *)
Theorem C49_exact_for_quadratics : forall lf mle deltas maxll niter top grad Q,
  quadratic lf mle top grad Q ->
  (forall i j, (i < length mle)%nat -> (j < length mle)%nat -> Q i j = Q j i) ->
  (forall i, (i < length mle)%nat -> 0 < Q i i) ->
  length deltas = length mle ->
  (forall i, (i < length mle)%nat -> nth i deltas 0 <> 0) ->
  (maxll = None \/ maxll = Some top) ->
  exists info err,
    obsinfo lf deltas maxll niter mle = (mle, Ok (info, err)) /\
    square info (length mle) /\ square err (length mle) /\
    forall i j, (i < length mle)%nat -> (j < length mle)%nat -> entry info i j = Q i j /\ entry err i j = 0.
Proof. exact obsinfo_quadratic. Qed.
Print Assumptions C49_exact_for_quadratics.
Example C49_exact_for_quadratics_case : exists info err,
  obsinfo case_lf [1 / 2; - 1 / 4] None 2 [1; 2] = ([1; 2], Ok (info, err)) /\
  entry info 0 0 = 2 /\ entry info 0 1 = 1 /\ entry info 1 0 = 1 /\ entry info 1 1 = 3 /\ entry err 0 1 = 0.
Proof.
  destruct (C49_exact_for_quadratics case_lf [1; 2] [1 / 2; - 1 / 4] None 2 5 case_grad case_Q case_quadratic case_symm case_pos eq_refl case_steps (or_introl eq_refl)) as [info [err [E [_ [_ V]]]]].
  exists info, err. split; [exact E|]. cbn [length] in V.
  split; [apply (V 0%nat 0%nat); lia|]. split; [apply (V 0%nat 1%nat); lia|]. split; [apply (V 1%nat 0%nat); lia|]. split; [apply (V 1%nat 1%nat); lia|]. apply (V 0%nat 1%nat); lia.
Qed.

(** For every function: when obsinfo returns, the parameters are as they were,
    both matrices are symmetric and no error is negative. *)
Theorem C49_symmetric_and_restored : forall lf deltas maxll niter mle mle' info err,
  obsinfo lf deltas maxll niter mle = (mle', Ok (info, err)) ->
  mle' = mle /\ square info (length mle) /\ square err (length mle) /\
  forall i j, (i < length mle)%nat -> (j < length mle)%nat ->
    entry info i j = entry info j i /\ entry err i j = entry err j i /\ 0 <= entry err i j.
Proof. exact obsinfo_any. Qed.
Print Assumptions C49_symmetric_and_restored.
Example C49_symmetric_and_restored_case : exists info err, obsinfo case4_lf [1 / 2; - 1 / 4] (Some 5) 3 [1; 2] = ([1; 2], Ok (info, err)).
Proof.
  destruct (obsinfo_fourth case4_lf [1; 2] [1 / 2; - 1 / 4] (Some 5) 3 5 case_Q case4_K case4_even case4_degree case_symm case_pos eq_refl case_steps (or_intror eq_refl) ltac:(discriminate) case4_diag case4_mixed)
    as [info [err [E _]]]. now exists info, err.
Qed.

(** C67: with at least one extrapolation the matrix is also exact when the log
    likelihood has odd terms of any form and terms of the fourth degree, whose
    size is limited only by the start value 1e30 of the error.  With two or
    more extrapolations the errors are zero. *)
Theorem C67_exact_with_fourth_degree_terms : forall lf mle deltas maxll niter top Q K,
  even_part lf mle top Q K -> fourth_degree K ->
  (forall i j, (i < length mle)%nat -> (j < length mle)%nat -> Q i j = Q j i) ->
  (forall i, (i < length mle)%nat -> 0 < Q i i) ->
  length deltas = length mle ->
  (forall i, (i < length mle)%nat -> nth i deltas 0 <> 0) ->
  (maxll = None \/ maxll = Some top) ->
  (1 <= niter)%nat ->
  (forall i, (i < length mle)%nat -> Rabs (K (axis i (nth i deltas 0))) <= big * nth i deltas 0 ^ 2) ->
  (forall i j, (i < j < length mle)%nat -> Rabs (K (two_axes i (1 / sqrt (Q i i)) j (1 / sqrt (Q j j)))) <= big) ->
  exists info err,
    obsinfo lf deltas maxll niter mle = (mle, Ok (info, err)) /\ square info (length mle) /\ square err (length mle) /\
    forall i j, (i < length mle)%nat -> (j < length mle)%nat ->
      entry info i j = Q i j /\
      ((2 <= niter)%nat -> entry err i j = 0) /\
      (niter = 1%nat -> i = j -> entry err i i = Rabs (K (axis i (nth i deltas 0)) / nth i deltas 0 ^ 2)).
Proof.
  intros lf mle deltas maxll niter top Q K HE HK HS HP HL HD HM HN BD BO.
  destruct (obsinfo_fourth lf mle deltas maxll niter top Q K HE HK HS HP HL HD HM ltac:(lia) BD BO) as [info [err [E [S1 [S2 V]]]]].
  exists info, err. split; [exact E|]. split; [exact S1|]. split; [exact S2|]. intros i j Hi Hj. destruct (V i j Hi Hj) as [V1 V2].
  split; [exact V1|]. split; [intros N; rewrite V2; now apply fourth_err_two|]. intros N EQ. destruct (V i i Hi Hi) as [_ V3]. rewrite V3. unfold fourth_err, err_of. rewrite Nat.eqb_refl, N. reflexivity.
Qed.
Print Assumptions C67_exact_with_fourth_degree_terms.
Example C67_case : exists info err,
  obsinfo case4_lf [1 / 2; - 1 / 4] None 1 [1; 2] = ([1; 2], Ok (info, err)) /\ entry info 0 0 = 2 /\ entry info 0 1 = 1 /\ entry err 0 0 = 1 / 2.
Proof.
  destruct (C67_exact_with_fourth_degree_terms case4_lf [1; 2] [1 / 2; - 1 / 4] None 1 5 case_Q case4_K case4_even case4_degree case_symm case_pos eq_refl case_steps (or_introl eq_refl) ltac:(lia) case4_diag case4_mixed)
    as [info [err [E [_ [_ V]]]]]. cbn [length] in V.
  exists info, err. split; [exact E|]. split; [apply (V 0%nat 0%nat); lia|]. split; [apply (V 0%nat 1%nat); lia|].
  destruct (V 0%nat 0%nat ltac:(lia) ltac:(lia)) as [_ [_ V0]]. rewrite (V0 eq_refl eq_refl). unfold case4_K, axis. cbn [Nat.eqb nth]. rewrite Rabs_left1; lra.
Qed.

(** With two extrapolations and one parameter the entry stays exact when there
    are terms of the sixth degree too, if they are not the larger part. *)
Theorem C67_exact_with_sixth_degree_terms : forall lf m d maxll top Q k4 k6,
  d <> 0 -> (maxll = None \/ maxll = Some top) -> lf [m] = Ok top ->
  (forall t, exists a b, lf [m + t] = Ok a /\ lf [m - t] = Ok b /\ a + b = 2 * top - Q * t ^ 2 + k4 * t ^ 4 + k6 * t ^ 6) ->
  2 * (Rabs k6 * d ^ 2) <= Rabs k4 -> 2 * (Rabs k4 * d ^ 2) <= big ->
  obsinfo lf [d] maxll 2 [m] = ([m], Ok (Mat 1 1 [Q], Mat 1 1 [Rabs k6 * d ^ 4 * ratio ^ 2])).
Proof. exact obsinfo_sixth. Qed.
Print Assumptions C67_exact_with_sixth_degree_terms.
Example C67_sixth_case : obsinfo case6_lf [1] None 2 [1] = ([1], Ok (Mat 1 1 [2], Mat 1 1 [Rabs 2 * 1 ^ 4 * ratio ^ 2])).
Proof.
  apply (C67_exact_with_sixth_degree_terms case6_lf 1 1 None 1 2 (-8) 2); [lra|now left|unfold case6_lf; cbn [nth]; f_equal; lra| | |].
  - intros t. do 2 eexists. split; [reflexivity|]. split; [reflexivity|]. cbn [nth]. ring.
  - rewrite (Rabs_left1 (-8)), (Rabs_pos_eq 2) by lra. lra.
  - rewrite (Rabs_left1 (-8)) by lra. unfold big. lra.
Qed.

(** C68: obsinfo does not keep its documented promises for every function.
    When the function raises, the caller's parameters stay displaced. *)
Theorem C68_restored_when_the_function_raises_refuted : exists lf deltas maxll niter mle mle' e,
  obsinfo lf deltas maxll niter mle = (mle', Err e) /\ mle' <> mle /\ exists p, lf p = Err e.
Proof.
  exists raises, [1], None, 0%nat, [0]. do 2 eexists. split; [exact case_raises|]. split.
  - cbn [pow]. intros H. injection H. lra.
  - exists [1]. unfold raises. cbn [nth]. now rewrite rleb_no by lra.
Qed.
Print Assumptions C68_restored_when_the_function_raises_refuted.
(** And a finite function of any size gets an answer only while the
    differences differ by less than 1e30: the result of the extrapolation is
    otherwise used without having been set. *)
Theorem C68_result_always_set_refuted : exists lf deltas maxll niter mle,
  (forall p, exists v, lf p = Ok v) /\ (forall i, (i < length mle)%nat -> nth i deltas 0 <> 0) /\ length deltas = length mle /\
  snd (obsinfo lf deltas maxll niter mle) = Err BadMemory.
Proof.
  exists steep, [1], None, 1%nat, [0]. split; [intros p; eexists; reflexivity|]. split; [intros [|i] Hi; cbn in *; [lra|lia]|]. split; [reflexivity|exact case_steep].
Qed.
Print Assumptions C68_result_always_set_refuted.

(** C50: when dllsteps returns, the value at the mode moved by each returned
    step lies below the maximum by dll within tol, the mode is as it was, and
    the steps are in the array of guesses. *)
Theorem C50_success_meets_target : forall lf fuel dll maxll maxiter tol mle guess after deltas,
  dllsteps lf fuel dll maxll maxiter tol (Scales mle guess) = (after, Ok deltas) ->
  sc_x after = mle /\ sc_dx after = deltas /\ length deltas = length mle /\
  exists top, (match maxll with Some v => Ok v | None => lf mle end) = Ok top /\
    forall i, (i < length mle)%nat -> exists v, lf (moved mle (axis i (nth i deltas 0))) = Ok v /\ v <= top /\ Rabs ((top - v) - dll) <= tol.
Proof. intros lf fuel dll maxll maxiter tol. apply dll_success. Qed.
Print Assumptions C50_success_meets_target.
Example C50_success_case : exists deltas, dllsteps bowl 5 1 None 20 (1 / 100) (Scales [1; -3] [1; -5]) = (Scales [1; -3] deltas, Ok deltas).
Proof. destruct case_bowl as [deltas [E _]]. now exists deltas. Qed.

(** Along axes on which the function is quadratic the exact steps are found at
    once, in the directions of the guesses. *)
Theorem C50_exact_for_quadratics : forall lf fuel dll maxll maxiter tol mle guess top (c : nat -> R),
  length guess = length mle -> (match maxll with Some v => Ok v | None => lf mle end) = Ok top -> 0 <= dll -> 0 <= tol ->
  (forall i, (i < length mle)%nat -> nth i guess 0 <> 0 /\ 0 < c i /\ forall t, lf (moved mle (axis i t)) = Ok (top - c i * t ^ 2 / 2)) ->
  exists deltas, dllsteps lf (S fuel) dll maxll (S maxiter) tol (Scales mle guess) = (Scales mle deltas, Ok deltas) /\ length deltas = length mle /\
    forall i, (i < length mle)%nat -> nth i deltas 0 = nth i guess 0 / Rabs (nth i guess 0) * sqrt (2 * dll / c i).
Proof. exact dll_quadratic. Qed.
Print Assumptions C50_exact_for_quadratics.
Example C50_exact_case : exists deltas, dllsteps bowl 5 1 None 20 (1 / 100) (Scales [1; -3] [1; -5]) = (Scales [1; -3] deltas, Ok deltas) /\
  nth 0 deltas 0 = 1 / Rabs 1 * sqrt (2 * 1 / 4) /\ nth 1 deltas 0 = -5 / Rabs (-5) * sqrt (2 * 1 / (1 / 4)).
Proof. destruct case_bowl as [deltas [E [_ V]]]. exists deltas. split; [exact E|]. split; [apply (V 0%nat); lia|apply (V 1%nat); lia]. Qed.

(** However a call ends, at most one component of the mode is changed. *)
Theorem C50_one_component_changed : forall lf fuel dll maxll maxiter tol mle guess after r,
  dllsteps lf fuel dll maxll maxiter tol (Scales mle guess) = (after, r) ->
  length (sc_x after) = length mle /\ exists i, forall k, (k < length mle)%nat -> k <> i -> nth k (sc_x after) 0 = nth k mle 0.
Proof. intros lf fuel dll maxll maxiter tol. apply dll_one_changed. Qed.
Print Assumptions C50_one_component_changed.
Example C50_one_component_case : exists t, dllsteps bowl 5 1 None 0 (1 / 100) (Scales [1; -3] [1; -5]) = (Scales [t; -3] [1; -5], Err RuntimeError).
Proof. eexists. exact case_slow. Qed.

(** A ValueError is raised only when a point on an axis is above the maximum;
    the other exceptions are those of a search that does not converge. *)
Theorem C50_errors : forall lf fuel dll maxll maxiter tol mle guess after e,
  (forall p, exists v, lf p = Ok v) -> length guess = length mle ->
  dllsteps lf fuel dll maxll maxiter tol (Scales mle guess) = (after, Err e) ->
  e = RuntimeError \/ e = OutOfFuel \/ e = NotFinite \/
  (e = ValueError /\ exists top i t v,
     (match maxll with Some w => Ok w | None => lf mle end) = Ok top /\ (i < length mle)%nat /\ lf (moved mle (axis i t)) = Ok v /\ top < v).
Proof. intros. eapply dll_errors; eassumption. Qed.
Print Assumptions C50_errors.
Example C50_errors_case : exists s, dllsteps rising 5 1 None 20 (1 / 100) (Scales [0] [1]) = (s, Err ValueError).
Proof. eexists. exact case_rising. Qed.

(** On failure the mode handed in by the caller is left displaced. *)
Theorem C50_mode_restored_on_value_error_refuted : exists lf fuel dll maxll maxiter tol mle guess after,
  dllsteps lf fuel dll maxll maxiter tol (Scales mle guess) = (after, Err ValueError) /\ length guess = length mle /\ sc_x after <> mle.
Proof.
  exists rising, 5%nat, 1, None, 20%nat, (1 / 100), [0], [1]. eexists. split; [exact case_rising|]. split; [reflexivity|]. cbn [sc_x]. intros H. injection H. lra.
Qed.
Print Assumptions C50_mode_restored_on_value_error_refuted.
Theorem C50_mode_restored_on_runtime_error_refuted : exists lf fuel dll maxll maxiter tol mle guess after,
  dllsteps lf fuel dll maxll maxiter tol (Scales mle guess) = (after, Err RuntimeError) /\ length guess = length mle /\ sc_x after <> mle.
Proof.
  exists bowl, 5%nat, 1, None, 0%nat, (1 / 100), [1; -3], [1; -5]. eexists. split; [exact case_slow|]. split; [reflexivity|]. cbn [sc_x]. intros H. injection H as H.
  revert H. match goal with |- context [sqrt ?a] => assert (0 < sqrt a) by (apply sqrt_lt_R0; lra) end. lra.
Qed.
Print Assumptions C50_mode_restored_on_runtime_error_refuted.

(** C69: the search need not end.  For a function that is flat along the first
    axis, or a first guess of zero, no number of steps is enough. *)
Theorem C69_no_end_on_flat_functions : forall lf dll maxll maxiter tol mle guess top,
  length guess = length mle -> (0 < length mle)%nat -> (match maxll with Some v => Ok v | None => lf mle end) = Ok top ->
  (forall s, lf (moved mle (axis 0 (s * nth 0 guess 0))) = Ok top) ->
  forall fuel, snd (dllsteps lf fuel dll maxll maxiter tol (Scales mle guess)) = Err OutOfFuel.
Proof. intros. eapply dll_flat; eassumption. Qed.
Print Assumptions C69_no_end_on_flat_functions.
Example C69_flat_case : forall fuel, snd (dllsteps (fun _ => Ok 3) fuel 1 None 20 (1 / 100) (Scales [0; 1] [1; 1])) = Err OutOfFuel.
Proof. apply (C69_no_end_on_flat_functions (fun _ => Ok 3) 1 None 20 (1 / 100) [0; 1] [1; 1] 3); [reflexivity|cbn; lia|reflexivity|reflexivity]. Qed.
(** It does end when on every axis the value differs from the maximum at some
    power of the growth factor times the guess: no later attempt is needed. *)
Theorem C69_ends_when_values_change : forall lf dll maxll maxiter tol mle guess top,
  (forall p, exists v, lf p = Ok v) -> (match maxll with Some v => Ok v | None => lf mle end) = Ok top -> length guess = length mle ->
  (forall i, (i < length mle)%nat -> exists k v, lf (moved mle (axis i (grow ^ k * nth i guess 0))) = Ok v /\ v <> top) ->
  exists b, forall fuel, (b <= fuel)%nat -> snd (dllsteps lf fuel dll maxll maxiter tol (Scales mle guess)) <> Err OutOfFuel.
Proof. exact dll_ends. Qed.
Print Assumptions C69_ends_when_values_change.
Example C69_ends_case : exists b, forall fuel, (b <= fuel)%nat -> snd (dllsteps plateau fuel 1 None 20 (1 / 100) (Scales [0] [1])) <> Err OutOfFuel.
Proof.
  apply (C69_ends_when_values_change plateau 1 None 20 (1 / 100) [0] [1] 0).
  - intros p. eexists. reflexivity.
  - unfold plateau. cbn [nth]. now rewrite rltb_yes by lra.
  - reflexivity.
  - intros [|i] Hi; [|cbn in Hi; lia]. exists 9%nat, (-1). split; [|lra]. unfold moved, axis, plateau. cbn [length seq map nth Nat.eqb]. rewrite rltb_no; [reflexivity|]. unfold grow. lra.
Qed.
Theorem C69_search_ends_refuted : exists lf dll maxll maxiter tol mle guess,
  length guess = length mle /\
  (forall i, (i < length mle)%nat -> forall t, t <> 0 -> exists a b, lf mle = Ok a /\ lf (moved mle (axis i t)) = Ok b /\ b < a) /\
  forall fuel, snd (dllsteps lf fuel dll maxll maxiter tol (Scales mle guess)) = Err OutOfFuel.
Proof.
  exists bowl, 1, None, 20%nat, (1 / 100), [1; -3], [0; 0]. split; [reflexivity|]. split.
  - intros i Hi t Ht. cbn [length] in Hi. destruct (bowl_axes i Hi) as [_ [C F]]. do 2 eexists. split; [reflexivity|]. split; [apply F|]. assert (0 < t ^ 2) by nra. nra.
  - apply (C69_no_end_on_flat_functions bowl 1 None 20 (1 / 100) [1; -3] [0; 0] 7); [reflexivity|cbn; lia|unfold bowl; f_equal; field|].
    intros s. unfold moved, axis, bowl. cbn [length seq map nth Nat.eqb]. f_equal. field.
Qed.
Print Assumptions C69_search_ends_refuted.

(** C70: tol is not a part of dll as documented.  A step may be returned whose
    change is a hundred times dll when tol is 0.01. *)
Theorem C70_tolerance_relative_to_dll_refuted : exists lf fuel dll maxiter tol mle guess after deltas top v,
  dllsteps lf fuel dll None maxiter tol (Scales mle guess) = (after, Ok deltas) /\ 0 < dll /\
  lf mle = Ok top /\ lf (moved mle (axis 0 (nth 0 deltas 0))) = Ok v /\ Rabs ((top - v) - dll) > tol * dll /\ top - v = 100 * dll.
Proof.
  destruct case_wedge as [s E]. exists wedge, 5%nat, (1 / 10000), 20%nat, (1 / 100), [0], [1], s, [1 / 100], (- Rabs 0), (- Rabs (0 + 1 / 100)).
  split; [exact E|]. split; [lra|]. split; [reflexivity|]. split; [reflexivity|]. rewrite Rabs_R0. rewrite (Rabs_pos_eq (0 + 1 / 100)) by lra. split; [rewrite Rabs_pos_eq; lra|lra].
Qed.
Print Assumptions C70_tolerance_relative_to_dll_refuted.
