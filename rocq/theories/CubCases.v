(** Worked cases for the cubature properties. *)

From Coq Require Import List Bool Arith ZArith Reals Lra Lia String.
From Coquelicot Require Import Coquelicot.
From Verif Require Import Exn Instances CountSpec CountLemmas BaModel CubTables CubModel CubSpec CubLemmas CubLemmas2 CubLemmas3 CubLemmas4 CubLemmas5 CubLemmas6.
Import ListNotations.
Open Scope R_scope.

(** 1 + 2 x y + 5 x^3 *)
Definition case_c (a b : nat) : R :=
  match a, b with 0%nat, 0%nat => 1 | 1%nat, 1%nat => 2 | 3%nat, 0%nat => 5 | _, _ => 0 end.
Lemma case_poly : forall x y, poly 3 case_c x y = 1 + 2 * x * y + 5 * x ^ 3.
Proof. intros x y. unfold poly, sum_over. cbn [seq map Nat.sub sumR fold_right case_c]. ring. Qed.
Lemma case_poly7 : forall x y, poly 7 case_c x y = 1 + 2 * x * y + 5 * x ^ 3.
Proof. intros x y. unfold poly, sum_over. cbn [seq map Nat.sub sumR fold_right case_c]. ring. Qed.

(** Its integral over [0,2] x [1,3] is 60. *)
Lemma case_integral : integral (poly 3 case_c) 0 2 1 3 = 60.
Proof.
  rewrite integral_poly. unfold spread, bco, um, sum_over, Binomial.C. cbn [seq map Nat.sub sumR fold_right case_c pow fact Nat.mul Nat.add INR]. field.
Qed.

(** Its mean for location (1, 2) and scale (1, 3): 1 + 2 * 1 * 2 + 5 * (1 + 3) = 25. *)
Lemma case_mean : normal_mean (poly 3 case_c) 1 2 1 3 25.
Proof.
  replace 25 with (sum_over 0 4 (fun a => sum_over 0 (4 - a) (fun b => case_c a b * (spread nm 1 1 a * spread nm 2 3 b)))); [apply mean_poly|].
  unfold spread, bco, sum_over, Binomial.C. cbn [seq map Nat.sub sumR fold_right case_c pow fact Nat.mul Nat.add INR]. rewrite nm_0, nm_1, (nm_SS 0), (nm_SS 1), nm_0, nm_1. cbn [INR]. field.
Qed.
Lemma case_integral7 : integral (poly 7 case_c) 0 2 1 3 = 60.
Proof.
  rewrite <- case_integral. unfold integral. apply RInt_ext. intros x _. apply RInt_ext. intros y _. now rewrite case_poly, case_poly7.
Qed.
