(** Properties of adapt.py and ADAPT: theorems only. *)

From Coq Require Import List Bool Arith ZArith Reals Permutation Lra Lia.
From Verif Require Import Exn Instances AdModel AdSpec AdLemmas3 AdLemmas4 AdLemmas5 AdCases.
Import ListNotations.
Open Scope R_scope.

(** C73: the boxes that are reached cover the whole box and do not overlap. *)
Theorem C73_boxes_tile : forall f rule r0 rs, reached f rule r0 rs ->
  (forall x, in_box (r_centre r0) (r_half r0) x -> exists r, In r rs /\ in_box (r_centre r) (r_half r) x) /\
  (forall r x, In r rs -> inside (r_centre r) (r_half r) x -> inside (r_centre r0) (r_half r0) x) /\
  apart rs.
Proof. exact reached_tiles. Qed.
Print Assumptions C73_boxes_tile.
Example C73_boxes_tile_case : forall v e npts, adapt one rule_two case_lower case_upper (1 / 100) 100 1 = Ok (Some (v, e, npts)) ->
  exists rs : list region, (forall x, in_box [1 / 2; 1] [1 / 2; 1] x -> exists r, In r rs /\ in_box (r_centre r) (r_half r) x) /\ apart rs /\ v = total r_val rs.
Proof.
  intros v e npts H. assert (A := adapt_ok one rule_two case_lower case_upper (1 / 100) 100 1 ltac:(cbn; lia) eq_refl). rewrite H in A.
  destruct A as (v' & e' & npts' & [= <- <- <-] & r0 & rs & Ec & Eh & Re & _ & V & _). exists rs.
  destruct (C73_boxes_tile _ _ _ _ Re) as (Co & _ & Ap). split; [|auto]. rewrite Ec, Eh in Co.
  assert (X : centre_of case_lower case_upper = [1 / 2; 1]) by (unfold centre_of; cbn; f_equal; [field|f_equal; field]).
  assert (Y : half_of case_lower case_upper = [1 / 2; 1]) by (unfold half_of; cbn; f_equal; [field|f_equal; field]).
  rewrite X, Y in Co. exact Co.
Qed.

(** If the error estimate of each application of the rule bounds its error,
    then the result is within the returned relative error of the integral. *)
Theorem C73_error_bound : forall f rule mu lower upper relacc maxfac wrkfac v e npts,
  additive mu -> (forall r, measured f rule r -> Rabs (r_val r - mu (r_centre r) (r_half r)) <= r_err r) ->
  (2 <= length lower <= 20)%nat -> length upper = length lower -> relacc <= 1 ->
  adapt f rule lower upper relacc maxfac wrkfac = Ok (Some (v, e, npts)) ->
  Rabs (v - mu (centre_of lower upper) (half_of lower upper)) <= e * Rabs v.
Proof. exact adapt_sound. Qed.
Print Assumptions C73_error_bound.
Example C73_error_bound_case : adapt one rule_alt case_lower case_upper (1 / 2) 100 1 = Ok (Some (164 / 81, 2 / 123, 33%Z)) /\
  Rabs (164 / 81 - 2) <= 2 / 123 * Rabs (164 / 81).
Proof.
  split; [exact case_adapt|].
  assert (B := C73_error_bound one rule_alt (fun _ h => vol h) case_lower case_upper (1 / 2) 100 1 _ _ _ vol_additive alt_measured ltac:(cbn; lia) eq_refl ltac:(lra) case_adapt). cbv beta in B. rewrite case_vol in B. exact B.
Qed.

(** When the rules of the first three orders agree, adapt returns their value
    with no error after one application. *)
Theorem C73_exact_rules : forall f rule lower upper relacc maxfac wrkfac v z z' z'',
  (2 <= length lower <= 20)%nat -> length upper = length lower -> (forall x, exists y, f x = Ok y) ->
  let c := centre_of lower upper in let h := half_of lower upper in
  rule c h 4%nat = Ok (v, z) -> rule c h 3%nat = Ok (v, z') -> rule c h 2%nat = Ok (v, z'') ->
  v <> 0 -> 0 < relacc -> (rulcls (length lower) <= z + 4 * Z.of_nat (length lower))%Z ->
  adapt f rule lower upper relacc maxfac wrkfac = Ok (Some (v, 0, (z + 4 * Z.of_nat (length lower))%Z)).
Proof. exact adapt_exact. Qed.
Print Assumptions C73_exact_rules.
Example C73_exact_rules_case : adapt slope rule_slope [0; 0] [2; 3] (1 / 1000) 100 1 = Ok (Some (6, 0, 33%Z)).
Proof.
  assert (V : comp 1 (centre_of [0; 0] [2; 3]) * vol (half_of [0; 0] [2; 3]) = 6) by (unfold comp, centre_of, vol, half_of; cbn; field).
  rewrite <- V. apply (C73_exact_rules slope rule_slope [0; 0] [2; 3] (1 / 1000) 100 1 _ 25 25 25); try reflexivity; try (cbn; lia).
  - intros x. eexists. reflexivity.
  - rewrite V. lra.
  - lra.
Qed.

(** C74: each outcome.  A result comes from boxes reached by always halving
    one with the largest error along the axis with the largest fourth
    difference; there are at most 50 boxes, the relative error is less than
    asked for, and there are at least the smallest number of evaluations.
    Otherwise there is a RuntimeError or the exception of the integrand. *)
Theorem C74_outcomes : forall f rule lower upper relacc maxfac wrkfac, (2 <= length lower <= 20)%nat -> length upper = length lower ->
  match adapt f rule lower upper relacc maxfac wrkfac with
  | Ok (Some (v, e, npts)) => answer f rule lower upper relacc v e npts
  | Ok None => False
  | Err e => e = RuntimeError \/ (exists x, f x = Err e) \/ (exists c h o, rule c h o = Err e)
  end.
Proof. exact adapt_outcomes. Qed.
Print Assumptions C74_outcomes.
Example C74_outcomes_case : answer one rule_alt case_lower case_upper (1 / 2) (164 / 81) (2 / 123) 33.
Proof. assert (H := C74_outcomes one rule_alt case_lower case_upper (1 / 2) 100 1 ltac:(cbn; lia) eq_refl). rewrite case_adapt in H. exact H. Qed.

(** C75: adapt does not give up early: if all sets of k boxes that can be
    reached have a small enough error, and 2 k - 1 applications of the rule
    are allowed and enough, it returns a result. *)
Theorem C75_succeeds : forall f rule lower upper relacc maxfac wrkfac k lo hi, (2 <= length lower <= 20)%nat -> length upper = length lower ->
  (forall x, exists y, f x = Ok y) -> (forall c h o, exists y, rule c h o = Ok y) -> costs rule lo hi -> (0 <= lo)%Z ->
  (1 <= k <= 50)%nat -> ((2 * Z.of_nat k - 1) * (hi + 4 * Z.of_nat (length lower)) <= 100 * rulcls (length lower))%Z ->
  (rulcls (length lower) <= (2 * Z.of_nat k - 1) * (lo + 4 * Z.of_nat (length lower)))%Z ->
  (forall r0 rs e, r_centre r0 = centre_of lower upper -> r_half r0 = half_of lower upper -> reached f rule r0 rs -> length rs = k -> relative rs e -> e < relacc) ->
  exists v e npts, adapt f rule lower upper relacc maxfac wrkfac = Ok (Some (v, e, npts)).
Proof. exact adapt_succeeds. Qed.
Print Assumptions C75_succeeds.
(** The rule is not exact for the whole box, and is for its halves. *)
Example C75_succeeds_case : exists v e npts, adapt one rule_two case_lower case_upper (1 / 100) 100 1 = Ok (Some (v, e, npts)) /\ Rabs (v - 2) <= e * Rabs v.
Proof.
  destruct (C75_succeeds one rule_two case_lower case_upper (1 / 100) 100 1 2 25 25) as (v & e & npts & E); try (cbn; lia); try reflexivity.
  - intros x. now exists 1.
  - intros c h o. unfold rule_two, rule_alt. destruct (Rltb (vol h) 2); eexists; reflexivity.
  - exact two_costs.
  - intros r0 rs e _. exact (two_halves r0 rs e).
  - exists v, e, npts. split; [exact E|].
    assert (B := C73_error_bound one rule_two (fun _ h => vol h) case_lower case_upper (1 / 100) 100 1 _ _ _ vol_additive two_measured ltac:(cbn; lia) eq_refl ltac:(lra) E). cbv beta in B. rewrite case_vol in B. exact B.
Qed.

(** C76: that adapt finds every integral for which its rules are exact, given
    enough evaluations and storage, is false: it raises RuntimeError, whatever
    maxfac and wrkfac are, when the integral is zero. *)
Theorem C76_exact_found_refuted : exists f rule mu lower upper relacc,
  additive mu /\ (forall x, exists y, f x = Ok y) /\ (forall c h o, exists z, rule c h o = Ok (mu c h, z)) /\
  (2 <= length lower <= 20)%nat /\ length upper = length lower /\ 0 < relacc /\
  forall maxfac wrkfac, adapt f rule lower upper relacc maxfac wrkfac = Err RuntimeError.
Proof.
  exists slope, rule_slope, (fun c h => comp 1 c * vol h), [-1; -1], [1; 1], 1.
  split; [exact slope_additive|]. split; [intros x; eexists; reflexivity|]. split; [intros c h o; eexists; reflexivity|].
  split; [cbn; lia|]. split; [reflexivity|]. split; [lra|]. intros maxfac wrkfac.
  apply (adapt_zero _ _ (fun c h => comp 1 c * vol h)); [exact slope_additive|intros x; eexists; reflexivity|intros c h o; eexists; reflexivity|cbn; lia|reflexivity|lra|exact slope_zero].
Qed.
Print Assumptions C76_exact_found_refuted.
Theorem C76_zero_integral : forall f rule mu lower upper relacc maxfac wrkfac,
  additive mu -> (forall x, exists y, f x = Ok y) -> (forall c h o, exists z, rule c h o = Ok (mu c h, z)) ->
  (2 <= length lower <= 20)%nat -> length upper = length lower -> relacc <= 1 -> mu (centre_of lower upper) (half_of lower upper) = 0 ->
  adapt f rule lower upper relacc maxfac wrkfac = Err RuntimeError.
Proof. exact adapt_zero. Qed.
Print Assumptions C76_zero_integral.
Example C76_zero_integral_case : adapt slope rule_slope [-1; -1] [1; 1] (1 / 10) 1000000 1000000 = Err RuntimeError.
Proof.
  apply (C76_zero_integral _ _ (fun c h => comp 1 c * vol h)); [exact slope_additive|intros x; eexists; reflexivity|intros c h o; eexists; reflexivity|cbn; lia|reflexivity|lra|exact slope_zero].
Qed.

(** C77: that adapt returns a result or raises an exception is false: for one
    dimension it returns None. *)
Theorem C77_result_or_error_refuted : exists f rule lower upper relacc maxfac wrkfac, length upper = length lower /\ lower <> [] /\
  adapt f rule lower upper relacc maxfac wrkfac = Ok None.
Proof.
  exists one, rule_alt, [0], [1], (1 / 10), 100%Z, 1%Z. split; [reflexivity|]. split; [discriminate|]. apply (proj2 (adapt_dims _ _ [0] [1] _ _ _)); [reflexivity|]. cbn. lia.
Qed.
Print Assumptions C77_result_or_error_refuted.
(** Bounds of different lengths raise ValueError, and otherwise the result is
    None exactly when the dimension is less than 2 or more than 20. *)
Theorem C77_dimensions : forall f rule lower upper relacc maxfac wrkfac,
  (length upper <> length lower -> adapt f rule lower upper relacc maxfac wrkfac = Err ValueError) /\
  (length upper = length lower -> (adapt f rule lower upper relacc maxfac wrkfac = Ok None <-> (length lower < 2 \/ 20 < length lower)%nat)).
Proof. exact adapt_none. Qed.
Print Assumptions C77_dimensions.
Example C77_dimensions_case : adapt one rule_alt [0; 0] [1] (1 / 10) 100 1 = Err ValueError /\ adapt one rule_alt [0] [1] (1 / 10) 100 1 = Ok None.
Proof.
  split; [apply (proj1 (C77_dimensions _ _ [0; 0] [1] _ _ _)); discriminate|].
  apply (proj2 (C77_dimensions _ _ [0] [1] _ _ _)); [reflexivity|cbn; lia].
Qed.
