(** Examples for adapt *)

From Coq Require Import List Bool Arith ZArith Reals Permutation Lra Lia.
From Verif Require Import Exn Instances McModel BaModel BaLemmas AdModel AdSpec AdLemmas AdLemmas2 AdLemmas3 AdLemmas4 AdLemmas5.
Import ListNotations.
Open Scope R_scope.

(** The volume of a box *)
Definition vol (h : list R) : R := fold_right (fun x p => 2 * x * p) 1 h.

Lemma along_cons : forall a t x l, (1 <= a)%nat -> along a t (x :: l) = (x + if Nat.eqb 1 a then t else 0) :: along (a - 1) t l.
Proof.
  intros a t x l Ha. unfold along. cbn [length seq map]. f_equal.
  rewrite <- seq_shift, map_map. apply map_ext_in. intros j Hj. apply in_seq in Hj.
  replace (S j - 1)%nat with (S (j - 1)) by lia. cbn [nth]. f_equal.
  destruct (Nat.eqb_spec (S j) a), (Nat.eqb_spec j (a - 1)); (lia || reflexivity).
Qed.
Lemma along_0 : forall t l, along 0 t l = l.
Proof.
  intros t l. apply (nth_ext _ _ 0 0); [apply along_len|]. intros k Hk. rewrite along_len in Hk. rewrite nth_along by exact Hk. cbn [Nat.eqb]. ring.
Qed.
Lemma vol_half : forall h a, (1 <= a <= length h)%nat -> vol (half_half a h) = vol h / 2.
Proof.
  unfold half_half. induction h as [|x h IH]; intros a Ha; [cbn in Ha; lia|]. rewrite along_cons by lia. unfold vol in *. cbn [fold_right].
  destruct (Nat.eqb_spec 1 a) as [<-|N].
  - rewrite along_0. unfold comp. cbn [Nat.sub nth]. field.
  - cbn [length] in Ha. replace (comp a (x :: h)) with (comp (a - 1) h).
    2: { unfold comp. replace (a - 1)%nat with (S (a - 1 - 1)) at 2 by lia. reflexivity. }
    rewrite IH by lia. field.
Qed.
Lemma vol_additive : additive (fun _ h => vol h).
Proof. intros a c h Ha Lh. rewrite vol_half by lia. field. Qed.

Definition one (x : list R) : res R := Ok 1.

(** A rule that comes near the volume from both sides *)
Definition rule_alt (c h : list R) (o : nat) : res (R * Z) := Ok (vol h * (1 + (- / 3) ^ o), 25%Z).
Lemma alt_error : forall V o, (4 <= o)%nat ->
  Rabs (V * (1 + (- / 3) ^ o) - V) <= estimate (V * (1 + (- / 3) ^ o)) (V * (1 + (- / 3) ^ (o - 1))) (V * (1 + (- / 3) ^ (o - 2))).
Proof.
  intros V o Ho. replace o with (S (S (o - 2)))%nat at 1 2 by lia. replace (o - 1)%nat with (S (o - 2)) by lia. cbn [pow]. set (t := (- / 3) ^ (o - 2)).
  unfold estimate.
  replace (V * (1 + - / 3 * (- / 3 * t)) - V) with (V * t * (1 / 9)) by field.
  replace (V * (1 + - / 3 * (- / 3 * t)) - V * (1 + - / 3 * t)) with (V * t * (4 / 9)) by field.
  replace (V * (1 + - / 3 * t) - V * (1 + t)) with (V * t * (- (4 / 3))) by field.
  rewrite !Rabs_mult. rewrite Rabs_Ropp, !(Rabs_pos_eq (_ / _)) by lra. rewrite <- !Rabs_mult. set (u := Rabs (V * t)). assert (U : 0 <= u) by apply Rabs_pos.
  rewrite (Rmax_right (u * (4 / 9) / 2)) by lra.
  destruct (Req_dec u 0) as [->|N]; [rewrite !Rmult_0_l; lra|].
  replace (u * (4 / 9) / (u * (4 / 3))) with (1 / 3) by (field; lra). rewrite Rmax_right by lra. lra.
Qed.
Lemma alt_measured : forall r, measured one rule_alt r -> Rabs (r_val r - vol (r_half r)) <= r_err r.
Proof.
  intros r ((o & q & q' & q'' & z & z' & z'' & Ho & E & E' & E'' & -> & ->) & _). unfold rule_alt in *. injection E as <- _. injection E' as <- _. injection E'' as <- _.
  apply alt_error. lia.
Qed.
Definition case_lower := [0; 0].
Definition case_upper := [1; 2].
Lemma case_vol : vol (half_of case_lower case_upper) = 2.
Proof. unfold vol, half_of. cbn. field. Qed.
Lemma case_adapt : adapt one rule_alt case_lower case_upper (1 / 2) 100 1 = Ok (Some (164 / 81, 2 / 123, 33%Z)).
Proof.
  assert (H1 : Rabs (2 * (1 + (- / 3) ^ 4) - 2 * (1 + (- / 3) ^ 3)) = 8 / 81) by (replace (2 * (1 + (- / 3) ^ 4) - 2 * (1 + (- / 3) ^ 3)) with (8 / 81) by field; apply Rabs_pos_eq; lra).
  assert (H2 : Rabs (2 * (1 + (- / 3) ^ 3) - 2 * (1 + (- / 3) ^ 2)) = 8 / 27) by (replace (2 * (1 + (- / 3) ^ 3) - 2 * (1 + (- / 3) ^ 2)) with (- (8 / 27)) by field; rewrite Rabs_Ropp; apply Rabs_pos_eq; lra).
  assert (E : bsrl_orders rule_alt (centre_of case_lower case_upper) (half_of case_lower case_upper) (rulcls 2) 0 4 8 = Ok (8 / 243, 164 / 81, 25%Z)).
  { cbn [bsrl_orders Nat.sub]. unfold rule_alt. rewrite case_vol. cbn [fst snd]. rewrite H1, H2.
    rewrite (proj2 (Reqb_false (8 / 81) 0)) by lra. rewrite (Rmax_right (8 / 81 / 2)) by lra. replace (8 / 81 / (8 / 27)) with (1 / 3) by field. rewrite Rmax_right by lra.
    replace (Rleb _ _) with false by (symmetry; apply Rleb_false; lra).
    change (rulcls 2 <? 2 * 25)%Z with true. cbv iota. do 3 f_equal; field. }
  destruct (axes_total one (centre_of case_lower case_upper) (half_of case_lower case_upper) 1 2) as [d Hd]; [intros; now exists 1|reflexivity|reflexivity|].
  assert (B : exists a, bsrl one rule_alt (length case_lower) (centre_of case_lower case_upper) (half_of case_lower case_upper) (rulcls (length case_lower)) 0 0 = Ok (Basic 33 (8 / 243) (164 / 81) a)).
  { unfold bsrl. change (length case_lower) with 2%nat. rewrite E. unfold one at 1. rewrite Hd. eexists. reflexivity. }
  destruct B as [a B].
  assert (Q : Rmin 1 (8 / 243 / Rabs (164 / 81)) = 2 / 123) by (rewrite (Rabs_pos_eq (164 / 81)) by lra; replace (8 / 243 / (164 / 81)) with (2 / 123) by field; apply Rmin_right; lra).
  assert (X := adapt_at_once one rule_alt case_lower case_upper (1 / 2) 100 1 _ ltac:(cbn; lia) eq_refl B). cbn [b_errest b_basest b_funcls] in X. rewrite Q in X.
  apply X; [lra|lra|lra|]. change (rulcls (length case_lower)) with 25%Z. lia.
Qed.

(** A rule that is exact for volumes less than 2 only *)
Definition rule_two (c h : list R) (o : nat) : res (R * Z) := if Rltb (vol h) 2 then Ok (vol h, 25%Z) else rule_alt c h o.
Lemma two_measured : forall r, measured one rule_two r -> Rabs (r_val r - vol (r_half r)) <= r_err r.
Proof.
  intros r ((o & q & q' & q'' & z & z' & z'' & Ho & E & E' & E'' & -> & ->) & _). unfold rule_two, rule_alt in *. destruct (Rltb (vol (r_half r)) 2); injection E as <- _; injection E' as <- _; injection E'' as <- _.
  - unfold estimate. rewrite !Rminus_diag_eq by reflexivity. rewrite Rabs_R0. lra.
  - apply alt_error. lia.
Qed.
Lemma two_costs : costs rule_two 25 25.
Proof. intros c h o q z _. unfold rule_two, rule_alt. destruct (Rltb (vol h) 2); intros [= _ <-]; lia. Qed.
Lemma two_halves : forall r0 rs e, r_half r0 = half_of case_lower case_upper -> reached one rule_two r0 rs -> length rs = 2%nat -> relative rs e -> e < 1 / 100.
Proof.
  intros r0 rs e H0 Re L Rel. destruct Re as [M|rs rs' Re (r & rest & r1 & r2 & P & _ & M1 & M2 & C1 & H1 & C2 & H2 & P')]; [discriminate|].
  assert (Lr : rest = []) by (apply Permutation_length in P'; cbn in P'; destruct rest; [reflexivity|cbn in P'; lia]). subst rest.
  assert (R0 : r = r0).
  { destruct Re as [M|rsa rsb Re (ra & resta & r1a & r2a & Pa & _ & _ & _ & _ & _ & _ & _ & Pb)].
    - apply Permutation_length_1 in P. congruence.
    - apply Permutation_length in P. apply Permutation_length in Pb. cbn in P, Pb. lia. }
  subst r. assert (M0 := reached_measured one rule_two r0 rs Re r0 (Permutation_in _ (Permutation_sym P) (or_introl eq_refl))).
  destruct M0 as [(_ & L0 & A0 & _) _].
  assert (V : vol (half_half (r_axis r0) (r_half r0)) = 1) by (rewrite vol_half by lia; rewrite H0, case_vol; field).
  assert (Z : forall q, measured one rule_two q -> r_half q = half_half (r_axis r0) (r_half r0) -> r_err q = 0 /\ r_val q = 1).
  { intros q ((o & v & v' & v'' & z & z' & z'' & Ho & E & E' & E'' & -> & ->) & _) Hq. rewrite Hq in *. unfold rule_two in *. rewrite V in *.
    rewrite (proj2 (Rltb_spec 1 2)) in E, E', E'' by lra. injection E as <- _. injection E' as <- _. injection E'' as <- _. split; [|reflexivity].
    unfold estimate. rewrite !Rminus_diag_eq by reflexivity. rewrite Rabs_R0. ring. }
  destruct (Z r1 M1 H1) as [E1 V1]. destruct (Z r2 M2 H2) as [E2 V2].
  assert (T1 : total r_val rs' = 2) by (rewrite (total_perm r_val rs' _ P'); unfold total; cbn; lra).
  assert (T2 : total r_err rs' = 0) by (rewrite (total_perm r_err rs' _ P'); unfold total; cbn; lra).
  destruct Rel as [[N _]|[_ ->]]; [lra|]. rewrite T1, T2. rewrite Rabs_pos_eq by lra. replace (0 / 2) with 0 by field. rewrite Rmin_right; lra.
Qed.
(** An integrand and a rule whose sum over a square is 0 *)
Definition slope (x : list R) : res R := Ok (comp 1 x).
Definition rule_slope (c h : list R) (o : nat) : res (R * Z) := Ok (comp 1 c * vol h, 25%Z).
Lemma slope_additive : additive (fun c h => comp 1 c * vol h).
Proof.
  intros a c h Ha Lh. rewrite vol_half by lia. unfold low_centre, high_centre. rewrite !comp_along by lia. destruct (Nat.eqb 1 a); field.
Qed.
Lemma slope_zero : comp 1 (centre_of [-1; -1] [1; 1]) * vol (half_of [-1; -1] [1; 1]) = 0.
Proof. unfold comp, centre_of. cbn. field. Qed.
