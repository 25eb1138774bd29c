(** Properties of flatten and of the moments of grids: theorems only. *)

From Coq Require Import ZArith List Bool Arith Reals Sorted Lra Lia.
From Verif Require Import Exn Instances RefModel RefSpec MomModel MomSpec MomLemmas MomLemmas2 MomLemmas3 MomCases.
Import ListNotations.
Open Scope R_scope.

(** C82: flatten returns the numbers of nested tuples and lists, none of them
    empty, in order, if the interpreter allows the nested calls it takes. *)
Theorem C82_nested_sequences : forall depth args, List.Forall nested args -> (forall a, In a args -> (calls a <= depth)%nat) -> (1 <= depth)%nat ->
  flatten depth args = Ok (flat_map leaves args).
Proof. exact flatten_nested. Qed.
Print Assumptions C82_nested_sequences.
Example C82_nested_sequences_case : flatten 1000 six = Ok [Num 1; Num 2; Num 3; Num 4; Num 5; Num 6].
Proof. apply (C82_nested_sequences 1000 six); [exact six_nested| |apply Nat.leb_le; reflexivity]. intros a [<-|[<-|[<-|[]]]]; apply Nat.leb_le; reflexivity. Qed.

(** That it does so for all sequences of numbers is false: the end of a long
    one stays as it is. *)
Theorem C82_long_refuted : exists xs, flatten 1000 [Seq (map Num xs)] <> Ok (map Num xs).
Proof. exists (repeat 1 1000). apply long_differs. rewrite repeat_length. split; apply Nat.leb_le; reflexivity. Qed.
Print Assumptions C82_long_refuted.
Theorem C82_long_sequences : forall depth xs, (1 <= depth <= length xs)%nat ->
  flatten depth [Seq (map Num xs)] = Ok (map Num (firstn (depth - 1) xs) ++ [Seq (map Num (skipn (depth - 1) xs))]).
Proof. exact flatten_long. Qed.
Print Assumptions C82_long_sequences.
Example C82_long_sequences_case : flatten 3 [Seq (map Num [1; 2; 3; 4])] = Ok [Num 1; Num 2; Seq [Num 3; Num 4]].
Proof. apply (C82_long_sequences 3 [1; 2; 3; 4]). cbn. lia. Qed.

(** An array loses a zero in second place, and with three elements or more is
    there as a whole after its first element. *)
Theorem C82_arrays_refuted : exists xs, flatten 1000 [Arr xs] = Ok [Num 7] /\ xs = [7; 0].
Proof.
  exists [7; 0]. split; [|reflexivity]. rewrite flatten_array2 by (apply Nat.leb_le; reflexivity). replace (Reqb 0 0) with true; [reflexivity|]. symmetry. now apply Reqb_spec.
Qed.
Print Assumptions C82_arrays_refuted.
Theorem C82_pairs : forall depth x y, (3 <= depth)%nat -> flatten depth [Arr [x; y]] = Ok (if Reqb y 0 then [Num x] else [Num x; Num y]).
Proof. exact flatten_array2. Qed.
Print Assumptions C82_pairs.
Theorem C82_arrays : forall depth x y z xs, (2 <= depth)%nat -> flatten depth [Arr (x :: y :: z :: xs)] = Ok [Num x; Arr (x :: y :: z :: xs)].
Proof. exact flatten_array. Qed.
Print Assumptions C82_arrays.
Example C82_arrays_case : flatten 1000 [Arr [1; 2; 3]] = Ok [Num 1; Arr [1; 2; 3]].
Proof. apply C82_arrays. apply Nat.leb_le. reflexivity. Qed.

(** Empty sequences stay, and strings fall into their characters. *)
Theorem C82_empty_refuted : exists args, flatten 1000 args = Ok [Seq []; Num 1] /\ flat_map leaves args = [Num 1].
Proof. exists [Seq []; Num 1]. split; reflexivity. Qed.
Print Assumptions C82_empty_refuted.
Theorem C82_strings : forall depth cs, cs <> [] -> (length cs <= depth)%nat -> flatten depth [Str cs] = Ok (map (fun c => Str [c]) cs).
Proof. exact flatten_string. Qed.
Print Assumptions C82_strings.
Example C82_strings_case : flatten 1000 [Str [97; 98]%nat] = Ok [Str [97%nat]; Str [98%nat]].
Proof. apply (C82_strings 1000 [97; 98]%nat); [discriminate|apply Nat.leb_le; reflexivity]. Qed.

(** C83: the moments of a grid are those of the trapezoid sum of the
    exponential, when its logarithm varies by 725 at most; in any case the
    first lies in the range of the grid and the second is at least its square.
    Computing them has no effect on the grid that can be seen. *)
Theorem C83_basic_grids : forall f lo hi n lin peak m, (2 <= n)%Z -> lo < hi -> (lin = false -> 0 < lo) -> lm_nmax m <> Some O ->
  exists g, new_bgrid lo hi n lin peak = Ok g /\
  forall evaluate, evaluate = stepfunc \/ evaluate = vecfunc ->
  exists g' m' g'' q m1 m2, evaluate f g m = (g', m', Ok tt) /\ logtrapzd g' = Ok q /\
  let xs := gpoints lin lo hi n in
  logtrapzd_mom None g' = (g'', Ok [q]) /\ logtrapzd_mom (Some 1%Z) g' = (g'', Ok [q; m1]) /\ logtrapzd_mom (Some 2%Z) g' = (g'', Ok [q; m1; m2]) /\
  lo <= m1 <= hi /\ m1 ^ 2 <= m2 /\
  ((forall x y, In x xs -> In y xs -> f x - f y <= 725) ->
     m1 * trapezoid (fun x => exp (f x)) xs = trapezoid (fun x => x * exp (f x)) xs /\ m2 * trapezoid (fun x => exp (f x)) xs = trapezoid (fun x => x ^ 2 * exp (f x)) xs) /\
  (forall i, point g'' i = point g' i) /\ trapzd g'' = trapzd g' /\ logtrapzd g'' = logtrapzd g' /\ (forall nmom, logtrapzd_mom nmom g'' = (g'', snd (logtrapzd_mom nmom g'))).
Proof. exact basic_moments. Qed.
Print Assumptions C83_basic_grids.
Example C83_basic_grids_case : exists g g' m' g'' q, new_bgrid 0 2 3 true true = Ok g /\ stepfunc flat g no_peaks = (g', m', Ok tt) /\
  logtrapzd g' = Ok q /\ logtrapzd_mom (Some 2%Z) g' = (g'', Ok [q; 1; 3 / 2]).
Proof. exact basic_case. Qed.

(** The same for linear grids after any calls of refine, over all points. *)
Theorem C83_refined_grids : forall f lo hi n nmax dynrange sigpts nsig peak calls,
  (2 <= n)%Z -> lo < hi -> nmax <> Some O -> (2 <= sigpts)%Z -> (1 <= nsig)%Z ->
  exists s s1, new_grid lo hi n true nmax dynrange sigpts nsig peak = Ok s /\ firstpass f s = (s1, Ok tt) /\
  let s2 := refines calls s1 in
  let xs := all_points true hi (rl_il (G_ilist s2)) in
  exists s3 lq m1 m2, grid_logtrapzd s2 = Ok lq /\
  grid_logtrapzd_mom (Some 1%Z) s2 = (s3, Ok [lq; m1]) /\ grid_logtrapzd_mom (Some 2%Z) s2 = (s3, Ok [lq; m1; m2]) /\
  lo <= m1 <= hi /\ m1 ^ 2 <= m2 /\
  ((forall x y, In x xs -> In y xs -> f x - f y <= 725) ->
     m1 * trapezoid (fun x => exp (f x)) xs = trapezoid (fun x => x * exp (f x)) xs /\ m2 * trapezoid (fun x => exp (f x)) xs = trapezoid (fun x => x ^ 2 * exp (f x)) xs) /\
  (forall fuel k, grid_point fuel s3 k = grid_point fuel s2 k) /\ grid_trapzd s3 = grid_trapzd s2 /\ grid_logtrapzd s3 = grid_logtrapzd s2.
Proof. exact refined_moments. Qed.
Print Assumptions C83_refined_grids.
Example C83_refined_grids_case : forall calls, exists s s1 s3 lq m2, new_grid 0 10 11 true None (Some 100000) 11 4 true = Ok s /\ firstpass flat s = (s1, Ok tt) /\
  grid_logtrapzd_mom (Some 2%Z) (refines calls s1) = (s3, Ok [lq; 5; m2]).
Proof. exact refined_case. Qed.

(** With the default number of moments the method raises AttributeError. *)
Theorem C83_default_refuted : exists s s1 lq, new_grid 0 10 11 true None (Some 100000) 11 4 true = Ok s /\ firstpass flat s = (s1, Ok tt) /\
  grid_logtrapzd s1 = Ok lq /\ grid_logtrapzd_mom None s1 = (s1, Err AttributeError).
Proof. exact default_case. Qed.
Print Assumptions C83_default_refuted.

(** Other numbers of moments are refused, and so is a grid without values;
    0 moments of a basic grid are the same as the default. *)
Theorem C83_basic_refused : forall f lo hi n lin peak m, (2 <= n)%Z -> lo < hi -> (lin = false -> 0 < lo) -> lm_nmax m <> Some O ->
  exists g, new_bgrid lo hi n lin peak = Ok g /\ (forall nmom, logtrapzd_mom nmom g = (g, Err RuntimeError)) /\
  forall evaluate, evaluate = stepfunc \/ evaluate = vecfunc ->
  exists g' m', evaluate f g m = (g', m', Ok tt) /\ logtrapzd_mom (Some 0%Z) g' = logtrapzd_mom None g' /\
  forall k, (k < 0 \/ 2 < k)%Z -> logtrapzd_mom (Some k) g' = (g', Err ValueError).
Proof. exact basic_refused. Qed.
Print Assumptions C83_basic_refused.
Theorem C83_refined_refused : forall f lo hi n nmax dynrange sigpts nsig peak calls,
  (2 <= n)%Z -> lo < hi -> nmax <> Some O -> (2 <= sigpts)%Z -> (1 <= nsig)%Z ->
  exists s s1, new_grid lo hi n true nmax dynrange sigpts nsig peak = Ok s /\ firstpass f s = (s1, Ok tt) /\
  let s2 := refines calls s1 in
  (forall nmom, nmom = None \/ nmom = Some 0%Z -> grid_logtrapzd_mom nmom s2 = (s2, Err AttributeError)) /\
  forall k, (k < 0 \/ 2 < k)%Z -> snd (grid_logtrapzd_mom (Some k) s2) = Err ValueError.
Proof. exact refined_refused. Qed.
Print Assumptions C83_refined_refused.
Example C83_refused_case : exists g g' m', new_bgrid 0 2 3 true true = Ok g /\ snd (logtrapzd_mom (Some 1%Z) g) = Err RuntimeError /\
  stepfunc flat g no_peaks = (g', m', Ok tt) /\ snd (logtrapzd_mom (Some 3%Z) g') = Err ValueError.
Proof.
  destruct (C83_basic_refused flat 0 2 3 true true no_peaks) as (g & E & H1 & H2); [lia|lra|discriminate|discriminate|].
  destruct (H2 stepfunc (or_introl eq_refl)) as (g' & m' & E1 & _ & H3). exists g, g', m'. rewrite H1, H3 by lia. auto.
Qed.
