(** Properties of the cubature rules and of adapt_vec. *)

From Coq Require Import List Bool Arith ZArith Reals Lra Lia String.
From Coquelicot Require Import Coquelicot.
From Verif Require Import Exn Instances CountSpec BaModel CubTables CubModel CubSpec CubLemmas CubLemmas2 CubLemmas3 CubLemmas4 CubLemmas5 CubLemmas6 CubCases.
Import ListNotations.
Open Scope R_scope.

(** C51: on every rectangle, given in either direction or of no width,
    rect3d4pt and rect7d12pt integrate every polynomial of total degree 3 and 7
    to within 1e-32 of a quarter of the area times the sum of the sizes of its
    terms.  The integrand need only be defined on the rectangle. *)
Theorem C51_third_degree_on_rectangles : forall f c xl xu yl yu,
  (forall x y, Rmin xl xu <= x <= Rmax xl xu -> Rmin yl yu <= y <= Rmax yl yu -> f x y = Ok (poly 3 c x y)) ->
  exists v, rect3d4pt f (xl, xu) (yl, yu) = Ok v /\
    Rabs (v - integral (poly 3 c) xl xu yl yu)
      <= / 10 ^ 32 * (Rabs (/ 2 * (xu - xl)) * Rabs (/ 2 * (yu - yl))) * size 3 c (Rmax (Rabs xl) (Rabs xu)) (Rmax (Rabs yl) (Rabs yu)).
Proof. exact rect3_exact. Qed.
Print Assumptions C51_third_degree_on_rectangles.
(** The integral of 1 + 2xy + 5x^3 over [0,2] x [1,3] is 60. *)
Example C51_third_degree_on_rectangles_case : exists v,
  rect3d4pt (fun x y => Ok (1 + 2 * x * y + 5 * x ^ 3)) (0, 2) (1, 3) = Ok v /\ Rabs (v - 60) <= / 10 ^ 29.
Proof.
  destruct (C51_third_degree_on_rectangles (fun x y => Ok (1 + 2 * x * y + 5 * x ^ 3)) case_c 0 2 1 3) as [v [E V]]; [intros x y _ _; now rewrite case_poly|].
  exists v. split; [exact E|]. rewrite case_integral in V. eapply Rle_trans; [exact V|]. rewrite !Rabs_pos_eq, !Rmax_right by lra. unfold size, sum_over. cbn [seq map Nat.sub sumR fold_right case_c]. rewrite Rabs_R0, Rabs_R1, !Rabs_pos_eq by lra. lra.
Qed.

Theorem C51_seventh_degree_on_rectangles : forall f c xl xu yl yu,
  (forall x y, Rmin xl xu <= x <= Rmax xl xu -> Rmin yl yu <= y <= Rmax yl yu -> f x y = Ok (poly 7 c x y)) ->
  exists v, rect7d12pt f (xl, xu) (yl, yu) = Ok v /\
    Rabs (v - integral (poly 7 c) xl xu yl yu)
      <= / 10 ^ 32 * (Rabs (/ 2 * (xu - xl)) * Rabs (/ 2 * (yu - yl))) * size 7 c (Rmax (Rabs xl) (Rabs xu)) (Rmax (Rabs yl) (Rabs yu)).
Proof. exact rect7_exact. Qed.
Print Assumptions C51_seventh_degree_on_rectangles.
Example C51_seventh_degree_on_rectangles_case : exists v,
  rect7d12pt (fun x y => Ok (1 + 2 * x * y + 5 * x ^ 3)) (0, 2) (1, 3) = Ok v /\ Rabs (v - 60) <= / 10 ^ 29.
Proof.
  destruct (C51_seventh_degree_on_rectangles (fun x y => Ok (1 + 2 * x * y + 5 * x ^ 3)) case_c 0 2 1 3) as [v [E V]]; [intros x y _ _; now rewrite case_poly7|].
  exists v. split; [exact E|]. rewrite case_integral7 in V.
  eapply Rle_trans; [exact V|]. rewrite !Rabs_pos_eq, !Rmax_right by lra. unfold size, sum_over. cbn [seq map Nat.sub sumR fold_right case_c]. rewrite Rabs_R0, Rabs_R1, !Rabs_pos_eq by lra. lra.
Qed.

(** The points lie strictly inside the rectangle: what the integrand does on
    the border or outside has no effect. *)
Theorem C51_points_inside : forall f xl xu yl yu, xl < xu -> yl < yu ->
  (forall x y, xl < x < xu -> yl < y < yu -> exists v, f x y = Ok v) ->
  (exists v, rect3d4pt f (xl, xu) (yl, yu) = Ok v) /\ (exists v, rect7d12pt f (xl, xu) (yl, yu) = Ok v).
Proof. exact rect_inside. Qed.
Print Assumptions C51_points_inside.
Example C51_points_inside_case : let f := fun x y => if Rleb x 0 then Err ZeroDivisionError else Ok (y / x) in
  (exists v, rect3d4pt f (0, 2) (1, 3) = Ok v) /\ (exists v, rect7d12pt f (0, 2) (1, 3) = Ok v).
Proof.
  intros f. apply C51_points_inside; try lra. intros x y Hx _. exists (y / x). unfold f. destruct (Rleb x 0) eqn:E; [apply Rleb_spec in E; lra|reflexivity].
Qed.

(** On the square from -1 to 1 the three square rules have degree 1, 3 and 7. *)
Theorem C51_squares : forall f,
  (forall c, (forall x y, -1 <= x <= 1 -> -1 <= y <= 1 -> f x y = Ok (poly 1 c x y)) ->
     square1d4pt f = Ok (integral (poly 1 c) (-1) 1 (-1) 1)) /\
  (forall c, (forall x y, -1 <= x <= 1 -> -1 <= y <= 1 -> f x y = Ok (poly 3 c x y)) ->
     exists v, square3d4pt f = Ok v /\ Rabs (v - integral (poly 3 c) (-1) 1 (-1) 1) <= / 10 ^ 32 * size 3 c 1 1) /\
  (forall c, (forall x y, -1 <= x <= 1 -> -1 <= y <= 1 -> f x y = Ok (poly 7 c x y)) ->
     exists v, square7d12pt f = Ok v /\ Rabs (v - integral (poly 7 c) (-1) 1 (-1) 1) <= / 10 ^ 32 * size 7 c 1 1).
Proof. exact squares_exact. Qed.
Print Assumptions C51_squares.
Example C51_squares_case : exists v, square3d4pt (fun x y => Ok (1 + 2 * x * y + 5 * x ^ 3)) = Ok v /\ Rabs (v - 4) <= / 10 ^ 31.
Proof.
  destruct (proj1 (proj2 (C51_squares (fun x y => Ok (1 + 2 * x * y + 5 * x ^ 3)))) case_c) as [v [E V]]; [intros x y _ _; now rewrite case_poly|].
  exists v. split; [exact E|]. replace (integral (poly 3 case_c) (-1) 1 (-1) 1) with 4 in V.
  2:{ rewrite integral_poly. unfold spread, bco, um, sum_over, Binomial.C. cbn [seq map Nat.sub sumR fold_right case_c pow fact Nat.mul Nat.add INR]. field. }
  eapply Rle_trans; [exact V|]. unfold size, sum_over. cbn [seq map Nat.sub sumR fold_right case_c]. rewrite Rabs_R0, Rabs_R1, !Rabs_pos_eq by lra. lra.
Qed.

(** C52: a legal call that returns what dcuhre gives: there is none. *)
Theorem C52_runs_refuted : exists ndim key, legal ndim key /\
  forall dcuhre nfuncs lower maxpts, List.length lower = ndim -> adapt_vec dcuhre nfuncs lower key maxpts = Err TypeError.
Proof. exact adapt_vec_witness. Qed.
Print Assumptions C52_runs_refuted.
(** The call of the test case in the module: three dimensions, the default key. *)
Example C52_runs_refuted_case : forall dcuhre, adapt_vec dcuhre 1 [0; 0; 0] 0 10000 = Err TypeError.
Proof. reflexivity. Qed.

(** Every legal call raises TypeError and every other call ValueError, whatever
    dcuhre would do. *)
Theorem C52_every_call_raises : forall dcuhre nfuncs lower key maxpts,
  (legal (List.length lower) key -> adapt_vec dcuhre nfuncs lower key maxpts = Err TypeError) /\
  (~ legal (List.length lower) key -> adapt_vec dcuhre nfuncs lower key maxpts = Err ValueError).
Proof. exact adapt_vec_always. Qed.
Print Assumptions C52_every_call_raises.
Example C52_every_call_raises_case : forall dcuhre,
  adapt_vec dcuhre 1 [0; 0] 4 10000 = Err TypeError /\ adapt_vec dcuhre 1 [0] 4 10000 = Err ValueError /\ adapt_vec dcuhre 1 [0; 0] 2 10000 = Err ValueError.
Proof. intros dcuhre. repeat split. Qed.

(** The arguments refused are the ones dcuhre refuses with codes 2 to 5, and
    the number of points per region is the one dcuhre computes. *)
Theorem C52_checks_agree : forall ndim key numfun a b minpts maxpts epsabs epsrel nw restar,
  (vec_num ndim key = Err ValueError <-> In (fst (dchhre (Z.of_nat ndim) numfun a b minpts maxpts epsabs epsrel key nw restar)) [2; 3; 4; 5]%Z) /\
  (forall p, vec_num ndim key = Ok p -> py_real p = IZR (snd (dchhre (Z.of_nat ndim) numfun a b minpts maxpts epsabs epsrel key nw restar))).
Proof. exact adapt_vec_checks. Qed.
Print Assumptions C52_checks_agree.
Example C52_checks_agree_case : vec_num 2 1 = Ok (PInt 65) /\ vec_num 4 4 = Ok (PInt 65) /\ vec_num 3 4 = Ok (PInt 39) /\
  (exists x, vec_num 5 0 = Ok (PFloat x) /\ x = 273).
Proof.
  split; [reflexivity|]. split; [reflexivity|]. split; [reflexivity|]. eexists. split; [reflexivity|]. cbn. lra.
Qed.

(** C71: with each of these rules NormWtCub2D gives the mean of every polynomial
    of the degree in the rule's name under the normal distribution, with the
    accuracy listed, whatever objects were made and called before and after. *)
Theorem C71_normal_means : forall rule d eps, In (rule, d, eps) sound_rules ->
  forall before after c f l0 l1 s0 s1, (forall x y, f x y = Ok (poly d c x y)) ->
  exists o st v m,
    norm_init [l0; l1] [s0; s1] rule (used before imported) = (st, Ok o) /\
    norm_call o f (used after st) = (used after st, Ok v) /\
    normal_mean (poly d c) l0 l1 s0 s1 m /\
    Rabs (v - m) <= eps * size d c (Rabs l0 + Rabs s0) (Rabs l1 + Rabs s1).
Proof. exact sound_means. Qed.
Print Assumptions C71_normal_means.
Example C71_normal_means_case : exists o st v,
  norm_init [1; 2] [1; 3] "e2r2_3_4a" imported = (st, Ok o) /\
  norm_call o (fun x y => Ok (1 + 2 * x * y + 5 * x ^ 3)) st = (st, Ok v) /\ Rabs (v - 25) <= / 10 ^ 13.
Proof.
  destruct (C71_normal_means "e2r2_3_4a" 3 (/ 10 ^ 15) (or_introl eq_refl) [] [] case_c (fun x y => Ok (1 + 2 * x * y + 5 * x ^ 3)) 1 2 1 3) as [o [st [v [m [I [E [M V]]]]]]]; [intros x y; now rewrite case_poly|].
  exists o, st, v. split; [exact I|]. split; [exact E|]. rewrite (mean_unique _ _ _ _ _ _ _ M case_mean) in V. eapply Rle_trans; [exact V|].
  unfold size, sum_over. cbn [seq map Nat.sub sumR fold_right case_c]. rewrite Rabs_R0, Rabs_R1, !Rabs_pos_eq by lra. lra.
Qed.
(** The names that can be given and the degrees they state *)
Example C71_rules_named : (forall rule d eps, In (rule, d, eps) sound_rules -> In (rule, d) named_degree) /\
  (forall rule, (exists i, rule_dict rule = Ok i) <-> In rule (map fst named_degree)).
Proof.
  split; [|exact names_ok]. intros rule d eps H. unfold sound_rules in H. cbn [In] in H. repeat (destruct H as [H|H]; [injection H as <- <- <-; cbn; tauto|]). contradiction.
Qed.

(** That every rule has the degree in its name is false: three do not. *)
Theorem C71_named_degree_refuted : exists rule d c, In (rule, d) named_degree /\
  forall before after, exists o st v m,
    norm_init [0; 0] [1; 1] rule (used before imported) = (st, Ok o) /\
    norm_call o (fun x y => Ok (poly d c x y)) (used after st) = (used after st, Ok v) /\
    normal_mean (poly d c) 0 0 1 1 m /\ / 2 <= Rabs (v - m).
Proof. exact named_degree_witness. Qed.
Print Assumptions C71_named_degree_refuted.
Theorem C71_three_rules_miss : forall rule k, In (rule, k) [("e2r2_13_41", 10%nat); ("e2r2_9_19a", 6%nat); ("e2r2_11_28c", 4%nat)]%string ->
  forall before after, exists o st v m,
    norm_init [0; 0] [1; 1] rule (used before imported) = (st, Ok o) /\
    norm_call o (fun x _ => Ok (x ^ k)) (used after st) = (used after st, Ok v) /\
    normal_mean (fun x _ => x ^ k) 0 0 1 1 m /\ / 2 <= Rabs (v - m).
Proof. exact three_miss. Qed.
Print Assumptions C71_three_rules_miss.
Example C71_three_rules_miss_case : exists o st v m,
  norm_init [0; 0] [1; 1] "e2r2_9_19a" imported = (st, Ok o) /\ norm_call o (fun x _ => Ok (x ^ 6)) st = (st, Ok v) /\
  normal_mean (fun x _ => x ^ 6) 0 0 1 1 m /\ / 2 <= Rabs (v - m).
Proof. exact (C71_three_rules_miss "e2r2_9_19a" 6 (or_intror (or_introl eq_refl)) [] []). Qed.
(** They have at least degrees 5, 5 and 3. *)
Theorem C71_weak_rules : forall rule d eps, In (rule, d, eps) weak_rules ->
  forall before after c f l0 l1 s0 s1, (forall x y, f x y = Ok (poly d c x y)) ->
  exists o st v m,
    norm_init [l0; l1] [s0; s1] rule (used before imported) = (st, Ok o) /\
    norm_call o f (used after st) = (used after st, Ok v) /\
    normal_mean (poly d c) l0 l1 s0 s1 m /\
    Rabs (v - m) <= eps * size d c (Rabs l0 + Rabs s0) (Rabs l1 + Rabs s1).
Proof. exact weak_means. Qed.
Print Assumptions C71_weak_rules.
Example C71_weak_rules_case : exists o st v,
  norm_init [1; 2] [1; 3] "e2r2_11_28c" imported = (st, Ok o) /\
  norm_call o (fun x y => Ok (1 + 2 * x * y + 5 * x ^ 3)) st = (st, Ok v) /\ Rabs (v - 25) <= / 10 ^ 13.
Proof.
  destruct (C71_weak_rules "e2r2_11_28c" 3 (/ 10 ^ 15) ltac:(cbn; tauto) [] [] case_c (fun x y => Ok (1 + 2 * x * y + 5 * x ^ 3)) 1 2 1 3) as [o [st [v [m [I [E [M V]]]]]]]; [intros x y; now rewrite case_poly|].
  exists o, st, v. split; [exact I|]. split; [exact E|]. rewrite (mean_unique _ _ _ _ _ _ _ M case_mean) in V. eapply Rle_trans; [exact V|].
  unfold size, sum_over. cbn [seq map Nat.sub sumR fold_right case_c]. rewrite Rabs_R0, Rabs_R1, !Rabs_pos_eq by lra. lra.
Qed.

(** C72: making and calling objects never changes the tables of the module. *)
Theorem C72_tables_kept : forall l rule i, rule_dict rule = Ok i ->
  rd (st_absc (used l imported)) i = rd (st_absc imported) i /\
  rd (st_wts (used l imported)) i = rd (st_wts imported) i /\
  (exists a w, rd (st_absc imported) i = Ok a /\ rd (st_wts imported) i = Ok w /\ List.length a = List.length w).
Proof. exact tables_stable. Qed.
Print Assumptions C72_tables_kept.
Example C72_tables_kept_case : rule_dict "e2r2_3_4a" = Ok 0%nat /\
  rd (st_wts (used [Make [5; 6] [7; 8] "e2r2_3_4a"; Make [5; 6] [7] "e2r2_3_4a"; Make [0; 0] [1; 1] "e2r2_9_21"] imported)) 0 = rd (st_wts imported) 0.
Proof. split; [reflexivity|]. exact (proj1 (proj2 (C72_tables_kept _ "e2r2_3_4a" 0 eq_refl))). Qed.

(** An object gives the same value whatever other objects are made and called
    afterwards. *)
Theorem C72_objects_independent : forall locn scale rule s st o f after,
  norm_init locn scale rule s = (st, Ok o) ->
  snd (norm_call o f (used after st)) = snd (norm_call o f st).
Proof. exact object_stable. Qed.
Print Assumptions C72_objects_independent.
Example C72_objects_independent_case : exists st o,
  norm_init [1; 2] [1; 3] "e2r2_3_4a" imported = (st, Ok o) /\
  forall f, snd (norm_call o f (used [Make [5; 6] [7; 8] "e2r2_3_4a"] st)) = snd (norm_call o f st).
Proof.
  destruct (C71_normal_means "e2r2_3_4a" 3 (/ 10 ^ 15) (or_introl eq_refl) [] [] case_c (fun x y => Ok (poly 3 case_c x y)) 1 2 1 3 (fun _ _ => eq_refl)) as [o [st [v [m [I _]]]]].
  exists st, o. split; [exact I|]. intros f. exact (C72_objects_independent _ _ _ _ _ _ _ _ I).
Qed.

(** An unknown name raises KeyError and changes nothing; a location or scale
    that is not a pair raises ValueError. *)
Theorem C72_bad_arguments : forall locn scale rule before, let s := used before imported in
  (~ In rule rule_names -> norm_init locn scale rule s = (s, Err KeyError)) /\
  (In rule rule_names -> List.length locn <> 2%nat \/ List.length scale <> 2%nat -> snd (norm_init locn scale rule s) = Err ValueError).
Proof. exact init_bad. Qed.
Print Assumptions C72_bad_arguments.
(** The name e2r2_3_4b is not there: the table is called e2_r2_3_4b. *)
Example C72_bad_arguments_case :
  norm_init [0; 0] [1; 1] "e2r2_3_4b" imported = (imported, Err KeyError) /\ snd (norm_init [0; 0; 0] [1; 1] "e2_r2_3_4b" imported) = Err ValueError.
Proof.
  split.
  - apply (proj1 (C72_bad_arguments [0; 0] [1; 1] "e2r2_3_4b" [])). cbn. intros H. repeat (destruct H as [H|H]; [discriminate|]). contradiction.
  - apply (proj2 (C72_bad_arguments [0; 0; 0] [1; 1] "e2_r2_3_4b" [])); [cbn; tauto|]. left. discriminate.
Qed.
