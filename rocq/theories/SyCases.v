(** Data for the examples beside the theorems about adapt with its rules. *)

From Coq Require Import List Bool Arith ZArith Reals Lra Lia.
From Coquelicot Require Import Coquelicot.
From Verif Require Import Exn Instances AdModel AdSpec SyModel SySpec SyLemmas10.
Import ListNotations.
Open Scope R_scope.

(** x^2 y + 3 over [0, 1] x [0, 2] x [-1, 1] *)
Definition p3 : list (R * list nat) := [(1, [2%nat; 1%nat; 0%nat]); (3, [0%nat; 0%nat; 0%nat])].
Definition lower3 : list R := [0; 0; -1].
Definition upper3 : list R := [1; 2; 1].
(** It divides by x, as log(x) / log(x) x^2 y + 3 would *)
Definition f3 (x : list R) : res R := if Reqb (nth 0 x 0) 0 then Err ZeroDivisionError else Ok (poly p3 x).
Lemma f3_inside : forall x, between lower3 upper3 x -> f3 x = Ok (poly p3 x).
Proof.
  intros x [H _]. unfold lower3 in H. inversion H as [|? v ? y H1 H2]; subst. unfold f3. cbn [nth]. replace (Reqb v 0) with false; [reflexivity|]. symmetry. apply Reqb_false. lra.
Qed.
Lemma p3_cubic : of_degree 3 3 p3.
Proof. intros c ks [E|[E|[]]]; injection E as <- <-; (split; [reflexivity|cbn; lia]). Qed.
Lemma p3_integral : integral lower3 upper3 (poly p3) = 40 / 3.
Proof.
  rewrite integral_poly; [|reflexivity|intros c ks [E|[E|[]]]; injection E as <- <-; reflexivity]. unfold p3, lower3, upper3. cbn [map fold_right fst snd spans]. unfold span. cbn [INR pow]. field.
Qed.
Lemma order3 : List.Forall2 Rlt lower3 upper3.
Proof. repeat constructor; lra. Qed.

(** x^3 y^2 + 1, two exponents greater than 1 *)
Definition p2 : list (R * list nat) := [(1, [3%nat; 2%nat]); (1, [0%nat; 0%nat])].
Lemma p2_tame : tame 2 2 p2.
Proof. intros c ks [E|[E|[]]]; injection E as <- <-; (split; [reflexivity|]; split; [cbn; intros k [<-|[<-|[]]]; lia|cbn; lia]). Qed.
Lemma p2_integral : integral (low_corner [1; 1] [1; 1]) (high_corner [1; 1] [1; 1]) (poly p2) = 44 / 3.
Proof.
  rewrite integral_poly; [|reflexivity|intros c ks [E|[E|[]]]; injection E as <- <-; reflexivity]. unfold p2, low_corner, high_corner. cbn [map fold_right fst snd spans combine]. unfold span. cbn [INR pow]. field.
Qed.

(** x over [-1, 1] x [0, 1] *)
Definition px : list (R * list nat) := [(1, [1%nat; 0%nat])].
Lemma px_cubic : of_degree 3 2 px.
Proof. intros c ks [E|[]]; injection E as <- <-; (split; [reflexivity|cbn; lia]). Qed.
Lemma px_integral : integral [-1; 0] [1; 1] (poly px) = 0.
Proof.
  rewrite integral_poly; [|reflexivity|intros c ks [E|[]]; injection E as <- <-; reflexivity]. unfold px. cbn [map fold_right fst snd spans]. unfold span. cbn [INR pow]. field.
Qed.
Lemma orderx : List.Forall2 Rlt [-1; 0] [1; 1].
Proof. repeat constructor; lra. Qed.

(** 1 over cubes *)
Definition pone (n : nat) : list (R * list nat) := [(1, repeat 0%nat n)].
Lemma zeros_sum0 : forall n, list_sum (repeat 0%nat n) = 0%nat.
Proof. induction n as [|n IH]; [reflexivity|exact IH]. Qed.
Lemma pone_cubic : forall n, of_degree 3 n (pone n).
Proof. intros n c ks [E|[]]; injection E as <- <-; (split; [apply repeat_length|rewrite zeros_sum0; lia]). Qed.
Lemma pone_is : forall n x, length x = n -> poly (pone n) x = 1.
Proof. intros n x <-. unfold poly, pone. cbn [map fold_right fst snd]. replace (monomial (repeat 0%nat (length x)) x) with 1; [ring|]. induction x as [|v x IH]; [reflexivity|]. cbn [length repeat monomial pow]. rewrite <- IH. ring. Qed.
Lemma pone_integral : forall n, integral (repeat 0 n) (repeat 1 n) (poly (pone n)) = 1.
Proof.
  intros n. rewrite integral_poly; [|now rewrite !repeat_length|intros c ks [E|[]]; injection E as <- <-; now rewrite !repeat_length]. unfold pone. cbn [map fold_right fst snd].
  replace (spans (repeat 0%nat n) (repeat 0 n) (repeat 1 n)) with 1; [ring|]. induction n as [|n IH]; [reflexivity|]. cbn [repeat spans]. rewrite <- IH. unfold span. cbn. field.
Qed.
Lemma cube : forall n, List.Forall2 Rlt (repeat 0 n) (repeat 1 n).
Proof. induction n as [|n IH]; constructor; [lra|exact IH]. Qed.
