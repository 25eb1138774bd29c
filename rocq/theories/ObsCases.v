(** Worked cases for derivatives. *)

From Coq Require Import List Bool Arith Reals Lra Lia.
From Verif Require Import Exn Instances CountSpec CountLemmas McModel McLemmas9 BaModel BaSpec BaLemmas ObsModel ObsSpec ObsLemmas ObsLemmas2 ObsLemmas3 ObsLemmas4 ObsLemmas5.
Import ListNotations.
Open Scope R_scope.

(** A quadratic function of two parameters, not at its maximum *)
Definition case_Q (i j : nat) : R := nth (2 * i + j) [2; 1; 1; 3] 0.
Definition case_grad (i : nat) : R := nth i [1; 0] 0.
Definition case_lf (p : list R) : res R :=
  match p with
  | [x; y] => Ok (5 + (x - 1) - (2 * (x - 1) ^ 2 + 2 * ((x - 1) * (y - 2)) + 3 * (y - 2) ^ 2) / 2)
  | _ => Err ValueError
  end.
Lemma case_sum : forall f, sum_over 0 2 f = f 0%nat + f 1%nat.
Proof. intros f. unfold sum_over. cbn. ring. Qed.
Lemma case_quad : forall v, quad 2 case_Q v = 2 * v 0%nat ^ 2 + 2 * (v 0%nat * v 1%nat) + 3 * v 1%nat ^ 2.
Proof. intros v. unfold quad. rewrite !case_sum. unfold case_Q. cbn. ring. Qed.
Lemma case_quadratic : quadratic case_lf [1; 2] 5 case_grad case_Q.
Proof. intros v. cbn [length]. rewrite case_quad, case_sum. unfold moved, case_lf, case_grad. cbn [length seq map nth]. f_equal. field. Qed.
Lemma case_symm : forall i j, (i < 2)%nat -> (j < 2)%nat -> case_Q i j = case_Q j i.
Proof. intros [|[|i]] [|[|j]] Hi Hj; try lia; reflexivity. Qed.
Lemma case_pos : forall i, (i < 2)%nat -> 0 < case_Q i i.
Proof. intros [|[|i]] Hi; try lia; unfold case_Q; cbn; lra. Qed.
Lemma case_steps : forall i, (i < 2)%nat -> nth i [1 / 2; - 1 / 4] 0 <> 0.
Proof. intros [|[|i]] Hi; try lia; cbn; lra. Qed.

(** With terms of the third and fourth degree *)
Definition case4_lf (p : list R) : res R :=
  match p with
  | [x; y] => Ok (5 + (x - 1) - (2 * (x - 1) ^ 2 + 2 * ((x - 1) * (y - 2)) + 3 * (y - 2) ^ 2) / 2 - (x - 1) ^ 3 - (x - 1) ^ 4)
  | _ => Err ValueError
  end.
Definition case4_K (v : nat -> R) : R := - 2 * v 0%nat ^ 4.
Lemma case4_even : even_part case4_lf [1; 2] 5 case_Q case4_K.
Proof.
  intros v. unfold moved, case4_lf. cbn [length seq map nth]. do 2 eexists. split; [reflexivity|]. split; [reflexivity|]. rewrite case_quad. unfold opposite, case4_K. field.
Qed.
Lemma case4_degree : fourth_degree case4_K.
Proof. intros t v. unfold case4_K, scaled. ring. Qed.
Lemma big_ge1 : 1 <= big. Proof. unfold big. apply IZR_le. discriminate. Qed.
Lemma case4_diag : forall i, (i < 2)%nat -> Rabs (case4_K (axis i (nth i [1 / 2; - 1 / 4] 0))) <= big * nth i [1 / 2; - 1 / 4] 0 ^ 2.
Proof.
  pose proof big_ge1 as B. intros [|[|i]] Hi; try lia; unfold case4_K, axis; cbn [Nat.eqb nth].
  - rewrite Rabs_left1 by lra. lra.
  - rewrite Rabs_left1 by lra. lra.
Qed.
Lemma case4_mixed : forall i j, (i < j < 2)%nat -> Rabs (case4_K (two_axes i (1 / sqrt (case_Q i i)) j (1 / sqrt (case_Q j j)))) <= big.
Proof.
  pose proof big_ge1 as B. intros i j H. assert (i = 0%nat) as -> by lia. assert (j = 1%nat) as -> by lia. unfold case4_K, two_axes, axis. cbn [Nat.eqb].
  change (case_Q 0 0) with 2. assert (S : sqrt 2 * sqrt 2 = 2) by (apply sqrt_sqrt; lra). assert (P : 0 < sqrt 2) by (apply sqrt_lt_R0; lra).
  assert (E : (1 / sqrt 2 + 0) ^ 4 = 1 / 4).
  { replace ((1 / sqrt 2 + 0) ^ 4) with (1 / ((sqrt 2 * sqrt 2) * (sqrt 2 * sqrt 2))) by (field; lra). rewrite S. lra. }
  rewrite E. rewrite Rabs_left1 by lra. lra.
Qed.

(** A function that raises: the array keeps the step. *)
Definition raises (p : list R) : res R := if Rleb (nth 0 p 0) 0 then Ok 0 else Err RuntimeError.
Lemma case_raises : obsinfo raises [1] None 0 [0] = ([0 + 1 * ratio ^ 0], Err RuntimeError).
Proof.
  unfold obsinfo, bind at 1, get. unfold bind at 1, call_lf at 1. unfold raises at 1. cbn [nth]. rewrite rleb_yes by lra. cbn [length Nat.eqb negb Nat.add].
  unfold ninfol, bind at 1, get. cbn [length seq over]. unfold bind at 1. unfold bind at 1. unfold diag_one, bind at 1, get_mu. cbn [rd nth_error].
  unfold bind at 1, lift at 1. cbn [rd nth_error]. unfold bind at 1. cbn [seq diag_diffs]. unfold bind at 1, set_mu. cbn [wr length Nat.ltb Nat.leb upd firstn skipn app].
  unfold bind at 1, call_lf at 1. unfold raises at 1. cbn [nth upd firstn skipn app]. rewrite rleb_no; [reflexivity|]. cbn [Nat.sub pow]. lra.
Qed.

(** Too large differences: no result. *)
Lemma rid_large : forall y c d, rds y 1 = Ok (c + d) -> rds y 0 = Ok (c + d * ratio ^ 2) -> big < Rabs d -> rid_ex y 2 = Ok (None, big).
Proof.
  intros y c d Y1 Y0 B. pose proof ratio_pos as RP. pose proof ratio_lt1 as RL. pose proof con2_gt1 as CG. set (con2 := 1 / ratio * (1 / ratio)) in *.
  assert (CR : con2 * ratio ^ 2 = 1) by (unfold con2; field; lra). pose proof big_pos as BP.
  unfold rid_ex. cbn [Nat.sub]. rewrite Y1. cbn [Nat.mul Nat.add repeat wr length Nat.ltb Nat.leb upd firstn skipn app seq iter].
  unfold rid_outer. cbn [Nat.sub]. rewrite Y0. cbn [rid_a rid_err rid_result Nat.mul Nat.add wr length Nat.ltb Nat.leb upd firstn skipn app seq iter]. fold con2.
  rewrite (inner_step 2 2 2 [Some (c + d); None; Some (c + d * ratio ^ 2); None] big None con2 (c + d * ratio ^ 2) (c + d) c); [|reflexivity|reflexivity|exact CG| |cbn; lia].
  2:{ replace ((c + d * ratio ^ 2) * con2) with (c * con2 + d * (con2 * ratio ^ 2)) by ring. rewrite CR. field. lra. }
  rewrite rleb_no.
  2:{ eapply Rlt_le_trans; [exact B|]. eapply Rle_trans; [|apply Rmax_r]. replace (c - (c + d)) with (- d) by ring. rewrite Rabs_Ropp. lra. }
  unfold rds, rd. cbn [fst rid_a rid_err rid_result Nat.mul Nat.sub Nat.add upd firstn skipn app nth_error]. reflexivity.
Qed.
Definition steep (p : list R) : res R := Ok (- IZR (10 ^ 31) * nth 0 p 0 ^ 4).
Lemma case_steep : snd (obsinfo steep [1] None 1 [0]) = Err BadMemory.
Proof.
  unfold obsinfo, bind at 1, get. unfold bind at 1, call_lf at 1. unfold steep at 1. cbn [nth length Nat.eqb negb Nat.add].
  unfold ninfol, bind at 1, get. cbn [length seq over]. unfold bind at 1. unfold bind at 1. unfold diag_one, bind at 1, get_mu. cbn [rd nth_error].
  unfold bind at 1, lift at 1. cbn [rd nth_error]. unfold bind at 1. pose proof ratio_pos as RP. set (B := IZR (10 ^ 31)).
  destruct (diag_diffs_ok steep (- B * 0 ^ 4) 0 1 0 2 (fun j => - 2 * B * (ratio ^ (2 - j)) ^ 2) [0] ltac:(cbn; lia)) with (m := 2%nat) (lo := 1%nat) (d2f := repeat (@None R) 2) (t := 0) as [d2f [t [E Y]]];
    [|lia|lia|reflexivity|intros; lia|].
  { intros j Hj. assert (P : 0 < ratio ^ (2 - j)) by now apply pow_lt. do 2 eexists. split; [reflexivity|]. split; [reflexivity|]. cbn [nth upd firstn skipn app]. unfold quot. rewrite reqb_ne by nra. fold B. f_equal. field. lra. }
  cbn [upd firstn skipn app] in E. rewrite E. cbn [Nat.ltb Nat.leb]. unfold bind at 1, bind at 1, lift at 1. unfold extrapolated.
  rewrite (rid_large d2f 0 (- 2 * B)); [reflexivity| | |].
  - change 1%nat with (2 - 1)%nat at 1. rewrite (Y 2%nat) by lia. f_equal. cbn [Nat.sub pow]. ring.
  - change 0%nat with (1 - 1)%nat at 1. rewrite (Y 1%nat) by lia. f_equal. cbn [Nat.sub pow]. ring.
  - assert (G : big < B) by (unfold big, B; apply IZR_lt; reflexivity). pose proof big_pos. rewrite Rabs_left1 by lra. lra.
Qed.

(** Steps *)
Definition bowl (p : list R) : res R := match p with [x; y] => Ok (7 - 2 * (x - 1) ^ 2 - (y + 3) ^ 2 / 8) | _ => Err ValueError end.
Lemma bowl_axes : forall i, (i < 2)%nat -> nth i [1; -5] 0 <> 0 /\ 0 < nth i [4; 1 / 4] 0 /\ forall t, bowl (moved [1; -3] (axis i t)) = Ok (7 - nth i [4; 1 / 4] 0 * t ^ 2 / 2).
Proof.
  intros [|[|i]] Hi; try lia; (split; [cbn; lra|]); (split; [cbn; lra|]); intros t; unfold moved, axis, bowl; cbn [length seq map nth Nat.eqb]; f_equal; field.
Qed.
Lemma case_bowl : exists deltas, dllsteps bowl 5 1 None 20 (1 / 100) (Scales [1; -3] [1; -5]) = (Scales [1; -3] deltas, Ok deltas) /\ length deltas = 2%nat /\
  forall i, (i < 2)%nat -> nth i deltas 0 = nth i [1; -5] 0 / Rabs (nth i [1; -5] 0) * sqrt (2 * 1 / nth i [4; 1 / 4] 0).
Proof.
  apply (dll_quadratic bowl 4 1 None 19 (1 / 100) [1; -3] [1; -5] 7 (fun i => nth i [4; 1 / 4] 0)); [reflexivity| |lra|lra|exact bowl_axes].
  unfold top_of, bowl. f_equal. field.
Qed.
(** A function that rises: the mode stays displaced. *)
Definition rising (p : list R) : res R := Ok (nth 0 p 0).
Lemma case_rising : dllsteps rising 5 1 None 20 (1 / 100) (Scales [0] [1]) = (Scales [0 + 1 * 1] [1], Err ValueError).
Proof.
  rewrite (dll_unfold rising 5 20 1 (1 / 100) None [0] [1] 0 eq_refl eq_refl). cbn [length seq scale_all]. unfold bind at 1, scale_one. unfold bind at 1, get_x at 1. cbn [sc_x rd nth_error].
  unfold bind at 1. cbn [guess]. unfold bind at 1, get_dx at 1. cbn [sc_dx rd nth_error]. unfold bind at 1, set_x at 1. cbn [sc_x wr length Nat.ltb Nat.leb upd firstn skipn app sc_dx].
  unfold bind at 1, call_f at 1, rising at 1. cbn [sc_x nth]. rewrite rltb_yes by lra. reflexivity.
Qed.
(** No iterations allowed: not converged, and displaced as well. *)
Lemma case_slow : dllsteps bowl 5 1 None 0 (1 / 100) (Scales [1; -3] [1; -5]) = (Scales [1 + 1 * 1 * sqrt (1 / (7 - (7 - 2 * (1 + 1 * 1 - 1) ^ 2 - (-3 + 3) ^ 2 / 8))); -3] [1; -5], Err RuntimeError).
Proof.
  assert (T : top_of bowl None [1; -3] = Ok 7) by (unfold top_of, bowl; f_equal; field).
  rewrite (dll_unfold bowl 5 0 1 (1 / 100) None [1; -3] [1; -5] 7 T eq_refl). cbn [length seq scale_all]. unfold bind at 1, scale_one. unfold bind at 1, get_x at 1. cbn [sc_x rd nth_error].
  unfold bind at 1. cbn [guess]. unfold bind at 1, get_dx at 1. cbn [sc_dx rd nth_error]. unfold bind at 1, set_x at 1. cbn [sc_x wr length Nat.ltb Nat.leb upd firstn skipn app sc_dx].
  unfold bind at 1, call_f at 1, bowl at 1. cbn [sc_x]. rewrite rltb_no by lra. rewrite rleb_no by lra. unfold ret at 1. rewrite rltb_no by lra.
  unfold bind at 1, get_dx at 1. cbn [sc_dx rd nth_error]. unfold bind at 1, set_x at 1. cbn [sc_x wr length Nat.ltb Nat.leb upd firstn skipn app sc_dx].
  unfold bind at 1. cbn [newton]. unfold bind at 1, call_f at 1, bowl at 1. cbn [sc_x]. rewrite rltb_no; [reflexivity|].
  set (q := sqrt _). assert (0 <= q ^ 2) by (apply pow2_ge_0). replace (1 + 1 * 1 * q - 1) with q by ring. lra.
Qed.
(** A tolerance of 0.01 lets a step with a hundred times the wanted change
    through. *)
Definition wedge (p : list R) : res R := Ok (- Rabs (nth 0 p 0)).
Lemma case_wedge : exists s, dllsteps wedge 5 (1 / 10000) None 20 (1 / 100) (Scales [0] [1]) = (s, Ok [1 / 100]).
Proof.
  assert (T : top_of wedge None [0] = Ok 0) by (unfold top_of, wedge; cbn [nth]; rewrite Rabs_R0; f_equal; ring).
  rewrite (dll_unfold wedge 5 20 (1 / 10000) (1 / 100) None [0] [1] 0 T eq_refl). cbn [length seq scale_all]. unfold bind at 1, scale_one. unfold bind at 1, get_x at 1. cbn [sc_x rd nth_error].
  unfold bind at 1. cbn [guess]. unfold bind at 1, get_dx at 1. cbn [sc_dx rd nth_error]. unfold bind at 1, set_x at 1. cbn [sc_x wr length Nat.ltb Nat.leb upd firstn skipn app sc_dx].
  unfold bind at 1, call_f at 1, wedge at 1. cbn [sc_x nth]. replace (0 + 1 * 1) with 1 by ring. rewrite Rabs_R1. rewrite rltb_no by lra. rewrite rleb_no by lra. unfold ret at 1. rewrite rltb_no by lra.
  unfold bind at 1, get_dx at 1. cbn [sc_dx rd nth_error]. unfold bind at 1, set_x at 1. cbn [sc_x wr length Nat.ltb Nat.leb upd firstn skipn app sc_dx].
  assert (Q : sqrt (1 / 10000 / (0 - - (1))) = 1 / 100) by (replace (1 / 10000 / (0 - - (1))) with (1 / 100 * (1 / 100)) by field; apply sqrt_square; lra).
  rewrite Q. unfold bind at 1. cbn [newton]. unfold bind at 1, call_f at 1, wedge at 1. cbn [sc_x nth]. replace (0 + 1 * 1 * (1 / 100)) with (1 / 100) by field. rewrite (Rabs_pos_eq (1 / 100)) by lra.
  rewrite rltb_no by lra. rewrite rltb_no by (rewrite Rabs_left1; lra). unfold ret at 1. unfold bind at 1, get_x at 1. cbn [sc_x rd nth_error]. unfold bind at 1, set_dx at 1. cbn [sc_x wr length Nat.ltb Nat.leb upd firstn skipn app sc_dx].
  unfold bind at 1, set_x at 1. cbn [sc_x wr length Nat.ltb Nat.leb upd firstn skipn app sc_dx]. unfold ret at 1. cbn [fst snd Nat.eqb]. unfold ret. cbn [Nat.eqb sc_dx].
  eexists. replace (1 / 100 - 0) with (1 / 100) by ring. reflexivity.
Qed.
(** A function that is flat near the mode *)
Definition plateau (p : list R) : res R := Ok (if Rltb (nth 0 p 0) 10 then 0 else -1).

(** One parameter with terms up to the sixth degree around 1 *)
Definition case6_lf (p : list R) : res R :=
  let t := nth 0 p 0 - 1 in Ok (1 - t ^ 2 + t ^ 3 - 4 * t ^ 4 + t ^ 6).
