(** Cases for the theorems about dcuhre. *)

From Coq Require Import List Bool Arith ZArith Reals Lra Lia.
From Verif Require Import Exn Instances AdSpec SySpec SyLemmas10 DcModel DcSpec DcLemmas11 DcLemmas12.
Import ListNotations.
Local Open Scope R_scope.

(** x^2 y + 3 on [0,1] x [2,0]: the integral is -2/3 - 6 *)
Definition cubic : list (R * list nat) := [(1, [2; 1]%nat); (3, [0; 0]%nat)].
Definition both (x : list R) (j : nat) : R := if Nat.eqb j 1 then poly cubic x else 0.
Definition column0 : column := Column (fun _ => 0) (fun _ => 0) 0 1 [] [].

Lemma box_ok : forall minpts, (minpts <= 100)%Z -> acceptable 2 [0; 2] [1; 0] minpts 100 (1 / 10) 0 4 100.
Proof.
  intros minpts H. unfold acceptable. cbn [length]. split; [lia|]. split; [lia|]. split; [constructor; [lra|constructor; [lra|constructor]]|]. split; [unfold key_ok; auto|].
  split; [vm_compute; discriminate|]. split; [exact H|]. split; [left; lra|]. vm_compute. discriminate.
Qed.
Lemma cubic_degree : of_degree 3 2 cubic.
Proof. intros a ks [E|[E|[]]]; injection E as <- <-; cbn; lia. Qed.
Lemma more_degree : forall d n p, of_degree d n p -> forall d', (d <= d')%nat -> of_degree d' n p.
Proof. intros d n p H d' L a ks Hin. destruct (H a ks Hin). split; [assumption|lia]. Qed.
Lemma cubic_integral : integral [0; 2] [1; 0] (poly cubic) = - 20 / 3.
Proof.
  rewrite integral_poly; [|reflexivity|intros c ks [E|[E|[]]]; injection E as <- <-; reflexivity]. unfold cubic. cbn [map fold_right fst snd spans]. unfold span. cbn [INR pow]. field.
Qed.
(** Exactly 84 evaluations are not possible *)
Lemma tight_ok : acceptable 1 [0; 0] [1; 1] 84 84 (1 / 10) 0 4 100.
Proof.
  unfold acceptable. cbn [length]. split; [lia|]. split; [lia|]. split; [constructor; [lra|constructor; [lra|constructor]]|]. split; [unfold key_ok; auto|].
  split; [vm_compute; discriminate|]. split; [lia|]. split; [left; lra|]. vm_compute. discriminate.
Qed.
Lemma tight_no_room : forall k, ~ (84 <= rule_cost 2 4 * (2 * k - 1) <= 84)%Z.
Proof. intros k. change (rule_cost 2 4) with 21%Z. lia. Qed.
(** In three dimensions with the rule of degree 9 *)
Lemma nine_ok : acceptable 1 [0; 0; 0] [1; 1; 1] 0 1000 (1 / 10) 0 3 1000.
Proof.
  unfold acceptable. cbn [length]. split; [lia|]. split; [lia|]. split; [repeat (constructor; [lra|]); constructor|]. split; [unfold key_ok; auto|].
  split; [vm_compute; discriminate|]. split; [lia|]. split; [left; lra|]. vm_compute. discriminate.
Qed.
(** The default rule of two dimensions *)
Lemma square_ok : acceptable 1 [0; 0] [1; 1] 0 200 (1 / 10) 0 0 100.
Proof.
  unfold acceptable. cbn [length]. split; [lia|]. split; [lia|]. split; [repeat (constructor; [lra|]); constructor|]. split; [unfold key_ok; auto|].
  split; [vm_compute; discriminate|]. split; [lia|]. split; [left; lra|]. vm_compute. discriminate.
Qed.
Definition thirteenth : list (R * list nat) := [(1, [6; 7]%nat)].
Lemma thirteenth_degree : of_degree 13 2 thirteenth.
Proof. intros a ks [E|[]]; injection E as <- <-; cbn; lia. Qed.
Lemma thirteenth_integral : integral [0; 0] [1; 1] (poly thirteenth) = 1 / 56.
Proof.
  rewrite integral_poly; [|reflexivity|intros c ks [E|[]]; injection E as <- <-; reflexivity]. unfold thirteenth. cbn [map fold_right fst snd spans]. unfold span. cbn [INR pow]. field.
Qed.
(** ... and that of three *)
Lemma cube_ok : acceptable 1 [0; 0; 0] [1; 1; 1] 0 400 (1 / 10) 0 0 100.
Proof.
  unfold acceptable. cbn [length]. split; [lia|]. split; [lia|]. split; [repeat (constructor; [lra|]); constructor|]. split; [unfold key_ok; auto|].
  split; [vm_compute; discriminate|]. split; [lia|]. split; [left; lra|]. vm_compute. discriminate.
Qed.
Definition plain : list (R * list nat) := [(1, [1; 2; 1]%nat)].
Lemma plain_degree : of_degree 5 3 plain.
Proof. intros a ks [E|[]]; injection E as <- <-; cbn; lia. Qed.
Lemma plain_reach : reach plain [0; 0; 0] [1; 1; 1] = 1.
Proof. unfold reach, plain. cbn [combine map fold_right fst snd]. rewrite Rabs_R0, Rabs_R1, Rmax_right by lra. cbn. ring. Qed.
Lemma cube_volume : volume [0; 0; 0] [1; 1; 1] = 1.
Proof. unfold volume. cbn [combine map fold_right fst snd]. rewrite Rminus_0_r, Rabs_R1. ring. Qed.
Lemma square_volume : volume [0; 0] [1; 1] = 1.
Proof. unfold volume. cbn [combine map fold_right fst snd]. rewrite Rminus_0_r, Rabs_R1. ring. Qed.
Lemma square_reach : reach thirteenth [0; 0] [1; 1] = 1.
Proof. unfold reach, thirteenth. cbn [combine map fold_right fst snd]. rewrite Rabs_R0, Rabs_R1, Rmax_right by lra. cbn. ring. Qed.
Definition ninth : list (R * list nat) := [(1, [4; 4; 1]%nat)].
Lemma ninth_degree : of_degree 9 3 ninth.
Proof. intros a ks [E|[]]; injection E as <- <-; cbn; lia. Qed.
Lemma ninth_integral : integral [0; 0; 0] [1; 1; 1] (poly ninth) = 1 / 50.
Proof.
  rewrite integral_poly; [|reflexivity|intros c ks [E|[]]; injection E as <- <-; reflexivity]. unfold ninth. cbn [map fold_right fst snd spans]. unfold span. cbn [INR pow]. field.
Qed.
Lemma tight_witness : exists f numfun a b minpts maxpts epsabs epsrel key nw, acceptable numfun a b minpts maxpts epsabs epsrel key nw /\
  forall junk result, exists v e neval, dcuhre f numfun a b minpts maxpts epsabs epsrel key nw 0 junk result = Ok (v, e, neval, 1%Z) /\ (neval <= maxpts)%Z /\ forall j, (1 <= j <= numfun)%nat -> v j = 0 /\ e j = 0 /\ accurate epsabs epsrel (v j) (e j).
Proof.
  exists (fun _ _ => 0), 1%nat, [0; 0], [1; 1], 84%Z, 84%Z, (1 / 10), 0, 4%Z, 100%Z. split; [exact tight_ok|]. intros junk result.
  destruct (run_ok (fun _ _ => 0) (fun _ _ => 0) 1 [0; 0] [1; 1] 84 84 (1 / 10) 0 4 100 junk result tight_ok (fun _ _ => eq_refl)) as (v0 & e0 & n0 & i0 & rs & E0 & _ & _ & _ & _ & _ & _ & _ & M & _).
  destruct (no_room (fun _ _ => 0) 1 [0; 0] [1; 1] 84 84 (1 / 10) 0 4 100 junk result tight_ok tight_no_room) as (v & e & neval & E). rewrite E0 in E. injection E as -> -> -> ->. exists v, e, neval. split; [exact E0|]. split; [exact M|].
  intros j Hj. destruct (exact (fun _ _ => 0) 1 [0; 0] [1; 1] 84 84 (1 / 10) 0 4 100 junk result j [] tight_ok ltac:(discriminate) (fun _ _ => eq_refl) (fun a ks H => match H with end)) as (v' & e' & n' & i' & E & V & Z). rewrite E0 in E. injection E as <- <- _ _.
  specialize (Z (fun a ks H => match H with end)). assert (V0 : v j = 0). { rewrite V. now rewrite integral_poly. }
  split; [exact V0|]. split; [exact Z|]. unfold accurate. rewrite Z, V0. apply (Rle_trans _ (1 / 10)); [lra|apply Rmax_l].
Qed.
