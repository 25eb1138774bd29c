(** Properties of the Bretthorst algorithm code (package/inference/gauss). *)
From Coq Require Import List Bool Arith Reals Lia Lra.
From Verif Require Import Exn CountSpec BaModel BaSpec BaLemmas2 BaLemmas3 BaLemmas4 BaLemmas5 BaLemmas6 BaLemmas7 BaCases.
Import ListNotations.
Open Scope R_scope.

(** ** C46: calls before do not matter *)
Theorem C46_marg_stats_history_free : forall U basis data ncol sigma setup o0, new_ba U basis data ncol sigma setup = Ok o0 ->
  forall cs p, snd (marg_stats true U p (after_calls cs o0)) = snd (marg_stats true U p o0).
Proof. exact marg_after. Qed.
Print Assumptions C46_marg_stats_history_free.

Theorem C46_amplitudes_history_free : forall U basis data ncol sigma setup o0, new_ba U basis data ncol sigma setup = Ok o0 ->
  forall cs p, p <> [] -> snd (amplitudes true U p (after_calls cs o0)) = snd (amplitudes true U p o0).
Proof. exact ampl_after. Qed.
Print Assumptions C46_amplitudes_history_free.

Theorem C46_residuals_history_free : forall U basis data ncol sigma setup o0, new_ba U basis data ncol sigma setup = Ok o0 ->
  forall cs p, p <> [] -> all_succeed cs o0 = true -> snd (residuals true U p (after_calls cs o0)) = snd (residuals true U p o0).
Proof. exact resid_after. Qed.
Print Assumptions C46_residuals_history_free.

(** With failing calls in the history the residuals are wrong: here those at
    1 are -1/3, but 7/6 after a failed call for other parameters. *)
Theorem C46_residuals_refuted : exists basis data o0 cs p,
  new_ba unit basis data 2 (Some 1) None = Ok o0 /\ p <> [] /\ exists l l',
  snd (residuals true unit p o0) = Ok l /\ snd (residuals true unit p (after_calls cs o0)) = Ok l' /\ nth 1 l 0 = - (1 / 3) /\ nth 1 l' 0 = 7 / 6.
Proof. exists slope_basis, slope_data, slope_ba, slope_story, [1]. split; [exact slope_made|]. split; [discriminate|exact slope_stale]. Qed.
Print Assumptions C46_residuals_refuted.

(** What the results are: the least squares fit of the basis at p, for any
    history. *)
Theorem C46_results : forall U basis data ncol sigma setup o0, new_ba U basis data ncol sigma setup = Ok o0 ->
  forall cs p G, design basis setup data sigma p G -> independent G ->
  exists Q S J A L,
    snd (marg_stats true U p (after_calls cs o0)) = Ok (Some Q, Some S, Some J) /\
    (p <> [] -> snd (amplitudes true U p (after_calls cs o0)) = Ok A) /\
    length A = rows G /\ Q = misfit G (std_of sigma data) (fun a => nth a A 0) /\
    (forall x, Q <= misfit G (std_of sigma data) x) /\
    (forall x, misfit G (std_of sigma data) x = Q -> forall a, (a < rows G)%nat -> x a = nth a A 0) /\
    Q + S = sum_over 0 (length data) (fun i => nth i (std_of sigma data) 0 ^ 2) /\
    (forall i j, (i < j)%nat -> (j < rows G)%nat -> L i j = 0) /\ (forall i, (i < rows G)%nat -> 0 < L i i) /\
    (forall a b, (a < rows G)%nat -> (b < rows G)%nat -> product (rows G) L (transpose L) a b = sum_over 0 (cols G) (fun i => entry G a i * entry G b i)) /\
    J = 1 / prod_over (rows G) (fun i => L i i) /\
    (p <> [] -> all_succeed cs o0 = true -> exists l, snd (residuals true U p (after_calls cs o0)) = Ok l /\ length l = length data /\
       forall i, (i < length data)%nat -> nth i l 0 = nth i (std_of sigma data) 0 - sum_over 0 (rows G) (fun a => nth a A 0 * entry G a i)).
Proof. exact results. Qed.
Print Assumptions C46_results.

Example C46_case : new_ba unit slope_basis slope_data 2 (Some 1) None = Ok slope_ba /\ design slope_basis None slope_data (Some 1) [1] (slope_mat 1) /\ independent (slope_mat 1).
Proof. split; [exact slope_made|]. split; [exact (slope_design 1)|]. apply slope_independent. lra. Qed.
(** The two calls of the history above, and one that succeeds *)
Example C46_history : snd (call_ba (Marg [1]) slope_ba) = true /\ all_succeed [Marg [1]] slope_ba = true.
Proof.
  assert (E : snd (call_ba (Marg [1]) slope_ba) = true).
  { destruct (results unit slope_basis slope_data 2 (Some 1) None slope_ba slope_made [] [1] (slope_mat 1) (slope_design 1) (slope_independent 1 ltac:(lra))) as [Q [S [J [A [L [H _]]]]]]. cbn [after_calls fold_left] in H. unfold call_ba, call_with, outcome. rewrite H. reflexivity. }
  split; [exact E|]. cbn [all_succeed]. now rewrite E.
Qed.

(** covar() after a computation is the inverse of the metric of its model. *)
Theorem C46_covar_of_last : forall U basis data ncol sigma setup o0 cs p G, new_ba U basis data ncol sigma setup = Ok o0 -> design basis setup data sigma p G -> independent G ->
  exists C, snd (ba_covar true U (fst (marg_stats true U p (after_calls cs o0)))) = Ok C /\ square C (rows G) /\
  (forall a b, (a < rows G)%nat -> (b < rows G)%nat -> entry C a b = entry C b a) /\
  forall a b, (a < rows G)%nat -> (b < rows G)%nat ->
    product (rows G) (fun a b => sum_over 0 (cols G) (fun i => entry G a i * entry G b i)) (entry C) a b = identity a b /\
    product (rows G) (entry C) (fun a b => sum_over 0 (cols G) (fun i => entry G a i * entry G b i)) a b = identity a b.
Proof. exact covar_after_marg. Qed.
Print Assumptions C46_covar_of_last.

Theorem C46_covar_needs_computation : forall U basis data ncol sigma setup o0, new_ba U basis data ncol sigma setup = Ok o0 -> snd (ba_covar true U o0) = Err ValueError.
Proof. exact covar_before. Qed.
Print Assumptions C46_covar_needs_computation.

(** The class that works on an object, which may also be changed behind its
    back *)
Theorem C46_obj_marg_stats_history_free : forall O set_nonlin std_basis std_smpls, settles O set_nonlin std_basis ->
  forall obj cs p, let o0 := new_bo O std_basis std_smpls obj in
  snd (marg_stats_o true O set_nonlin std_basis std_smpls p (after_ocalls O set_nonlin std_basis std_smpls cs o0)) = snd (marg_stats_o true O set_nonlin std_basis std_smpls p o0).
Proof. exact marg_after_o. Qed.
Print Assumptions C46_obj_marg_stats_history_free.

Theorem C46_obj_amplitudes_history_free : forall O set_nonlin std_basis std_smpls, settles O set_nonlin std_basis ->
  forall obj cs p, let o0 := new_bo O std_basis std_smpls obj in p <> [] ->
  snd (amplitudes_o true O set_nonlin std_basis std_smpls p (after_ocalls O set_nonlin std_basis std_smpls cs o0)) = snd (amplitudes_o true O set_nonlin std_basis std_smpls p o0).
Proof. exact ampl_after_o. Qed.
Print Assumptions C46_obj_amplitudes_history_free.

Theorem C46_obj_residuals_history_free : forall O set_nonlin std_basis std_smpls, settles O set_nonlin std_basis ->
  forall obj cs p, let o0 := new_bo O std_basis std_smpls obj in p <> [] -> all_succeed_o O set_nonlin std_basis std_smpls cs o0 = true ->
  snd (residuals_o true O set_nonlin std_basis std_smpls p (after_ocalls O set_nonlin std_basis std_smpls cs o0)) = snd (residuals_o true O set_nonlin std_basis std_smpls p o0).
Proof. exact resid_after_o. Qed.
Print Assumptions C46_obj_residuals_history_free.

Theorem C46_obj_residuals_refuted : exists set_nonlin std_basis std_smpls obj cs p,
  settles R set_nonlin std_basis /\ p <> [] /\ let o0 := new_bo R std_basis std_smpls obj in exists l l',
  snd (residuals_o true R set_nonlin std_basis std_smpls p o0) = Ok l /\
  snd (residuals_o true R set_nonlin std_basis std_smpls p (after_ocalls R set_nonlin std_basis std_smpls cs o0)) = Ok l' /\ nth 1 l 0 = - (1 / 3) /\ nth 1 l' 0 = 7 / 6.
Proof. exists slope_set, slope_fns, line_smpls, 7, slope_ostory, [1]. split; [exact slope_settles|]. split; [discriminate|exact obj_stale]. Qed.
Print Assumptions C46_obj_residuals_refuted.

Example C46_obj_case : settles R slope_set slope_fns.
Proof. exact slope_settles. Qed.

(** ** C47: the kernel solves the least squares problem *)
Theorem C47_analysis : forall G s, shaped G -> length s = cols G -> independent G ->
  exists r, metricAnalysis G s = Ok r /\
  square (an_metric r) (rows G) /\ square (an_L r) (rows G) /\ length (an_proj r) = rows G /\ length (an_amps r) = rows G /\
  (forall a b, (a < rows G)%nat -> (b < rows G)%nat -> entry (an_metric r) a b = sum_over 0 (cols G) (fun i => entry G a i * entry G b i)) /\
  (forall i j, (i < j)%nat -> (j < rows G)%nat -> entry (an_L r) i j = 0) /\
  (forall i, (i < rows G)%nat -> 0 < entry (an_L r) i i) /\
  (forall i j, (i < rows G)%nat -> (j < rows G)%nat -> product (rows G) (entry (an_L r)) (transpose (entry (an_L r))) i j = entry (an_metric r) i j) /\
  an_rdet r = prod_over (rows G) (fun i => entry (an_L r) i i) /\
  (forall a, (a < rows G)%nat -> nth a (an_proj r) 0 = sum_over 0 (cols G) (fun i => entry G a i * nth i s 0)) /\
  (forall a, (a < rows G)%nat -> sum_over 0 (rows G) (fun b => entry (an_metric r) a b * nth b (an_amps r) 0) = nth a (an_proj r) 0) /\
  an_suf r = sum_over 0 (rows G) (fun a => nth a (an_amps r) 0 * nth a (an_proj r) 0).
Proof.
  intros G s SH LS I. destruct (analysis_ok G s SH LS I) as [r [E Z]]. exists r. split; [exact E|]. destruct Z.
  exact (conj z_metric (conj z_L (conj z_plen (conj z_alen (conj z_metric_is (conj z_low (conj z_pos (conj z_factor (conj z_rdet (conj z_proj (conj z_normal z_suf))))))))))).
Qed.
Print Assumptions C47_analysis.

(** The amplitudes are the only ones that minimise the misfit, and the
    sufficient statistic is what they take from the sum of squares. *)
Theorem C47_least_squares : forall G s r, shaped G -> metricAnalysis G s = Ok r ->
  let A := fun a => nth a (an_amps r) 0 in
  misfit G s A = sum_over 0 (cols G) (fun i => nth i s 0 ^ 2) - an_suf r /\
  (forall x, misfit G s A <= misfit G s x) /\
  (forall x, misfit G s x = misfit G s A -> forall a, (a < rows G)%nat -> x a = A a).
Proof. intros G s r SH E. destruct (analysis_analysed G s r SH E) as [_ Z]. exact (misfit_min G s r Z). Qed.
Print Assumptions C47_least_squares.

(** It succeeds only if the rows are independent. *)
Theorem C47_rejects_dependent : forall G s, shaped G -> length s = cols G -> ~ independent G -> metricAnalysis G s = Err ValueError.
Proof. exact analysis_rejects. Qed.
Print Assumptions C47_rejects_dependent.

Theorem C47_rejects_shape : forall G s, length s <> cols G -> metricAnalysis G s = Err ValueError.
Proof. exact analysis_shape. Qed.
Print Assumptions C47_rejects_shape.

Example C47_case : shaped line_mat /\ length line_smpls = cols line_mat /\ independent line_mat /\ exists r, metricAnalysis line_mat line_smpls = Ok r /\ nth 0 (an_amps r) 0 = 5 / 6 /\ nth 1 (an_amps r) 0 = 3 / 2 /\ an_suf r = 125 / 6.
Proof.
  split; [exact line_shaped|]. split; [reflexivity|]. split; [exact line_independent|]. destruct (analysis_ok line_mat line_smpls line_shaped eq_refl line_independent) as [r [E Z]]. exists r. split; [exact E|exact (line_amps r Z)].
Qed.
Example C47_dependent_case : shaped flat_mat /\ length [1; 5] = cols flat_mat /\ ~ independent flat_mat.
Proof. split; [reflexivity|]. split; [reflexivity|exact flat_dependent]. Qed.

(** ** C48: the covariance inverts the metric *)
(** Only the lower triangle is looked at. *)
Theorem C48_covar_inverts : forall A n, square A n -> (forall i, (i < n)%nat -> entry A i i <> 0) ->
  let L := fun i j => if Nat.leb j i then entry A i j else 0 in let M := product n L (transpose L) in
  exists C, covar A = Ok C /\ square C n /\ (forall i j, (i < n)%nat -> (j < n)%nat -> entry C i j = entry C j i) /\
  (forall i j, (i < n)%nat -> (j < n)%nat -> product n M (entry C) i j = identity i j /\ product n (entry C) M i j = identity i j).
Proof. exact covar_is. Qed.
Print Assumptions C48_covar_inverts.

Example C48_case : square fact_mat 2 /\ (forall i, (i < 2)%nat -> entry fact_mat i i <> 0) /\ covar fact_mat = Ok (Mat 2 2 [1 / 2; - (1 / 2); - (1 / 2); 1]).
Proof. split; [exact fact_square|]. split; [exact fact_diag|exact fact_covar]. Qed.

(** ** C65: arrays that are not square *)
(** More rows than columns: elements outside the array are read. *)
Theorem C65_covar_reads_outside : forall A, shaped A -> (cols A < rows A)%nat -> covar A = Err BadMemory.
Proof. exact covar_short. Qed.
Print Assumptions C65_covar_reads_outside.

(** More columns: accepted, and the result is not the covariance of the square
    part. *)
Theorem C65_covar_not_square_refuted : exists A C, shaped A /\ (rows A < cols A)%nat /\ (forall i j, (i < j)%nat -> (j < cols A)%nat -> (i < rows A)%nat -> entry A i j = 0) /\ (forall i, (i < rows A)%nat -> entry A i i <> 0) /\
  covar A = Ok C /\ product (rows A) (product (rows A) (entry A) (transpose (entry A))) (entry C) 0 0 = 3.
Proof.
  exists wide_mat, (Mat 2 3 [1 / 4; 0; 0; 1; 1; 0]). split; [reflexivity|]. split; [cbn; lia|]. split; [|split; [|split; [exact wide_covar|]]].
  - intros i j I J K. cbn in J, K. assert (i = 0 /\ j = 1 \/ i = 0 /\ j = 2 \/ i = 1 /\ j = 2)%nat as [[-> ->] | [[-> ->] | [-> ->]]] by lia; reflexivity.
  - intros i I. cbn in I. assert (i = 0%nat \/ i = 1%nat) as [-> | ->] by lia; cbn; lra.
  - cbn. lra.
Qed.
Print Assumptions C65_covar_not_square_refuted.

Example C65_case : let A := Mat 2 1 [2; 1] in shaped A /\ (cols A < rows A)%nat.
Proof. split; [reflexivity|cbn; lia]. Qed.

(** ** C66: the sources as they are *)
(** vecba.py puts a bare object in place of the kernel: no call succeeds. *)
Theorem C66_no_call_succeeds : forall U basis data ncol sigma setup o0, new_ba U basis data ncol sigma setup = Ok o0 ->
  forall cs c, snd (call_with false c (fold_left (fun o c => fst (call_with false c o)) cs o0)) = false.
Proof. exact never. Qed.
Print Assumptions C66_no_call_succeeds.

Theorem C66_marg_stats_refuted : exists basis data o0 p G, new_ba unit basis data 2 (Some 1) None = Ok o0 /\ design basis None data (Some 1) p G /\ independent G /\ snd (marg_stats false unit p o0) = Err AttributeError.
Proof.
  exists slope_basis, slope_data, slope_ba, [1], (slope_mat 1). split; [exact slope_made|]. split; [exact (slope_design 1)|]. split; [apply slope_independent; lra|]. reflexivity.
Qed.
Print Assumptions C66_marg_stats_refuted.
