(** Worked examples for the statements about linear models. *)
From Coq Require Import List Bool Arith Reals Lia Lra Psatz.
From Verif Require Import Exn Instances McModel CountSpec CountLemmas RefCases BaModel BaSpec BaLemmas BaLemmas2 BaLemmas3 BaLemmas4 BaLemmas5 BaLemmas6 BaLemmas7.
Import ListNotations.
Open Scope R_scope.

(** A constant and a line, sampled at 0, 1, 2 *)
Definition line_mat : mat := Mat 2 3 [1; 1; 1; 0; 1; 2].
Definition line_smpls : list R := [1; 2; 4].
Lemma line_shaped : shaped line_mat.
Proof. reflexivity. Qed.
Lemma line_independent : independent line_mat.
Proof.
  intros x H a A. cbn in A. pose proof (H 0%nat ltac:(cbn; lia)) as H0. pose proof (H 1%nat ltac:(cbn; lia)) as H1. cbn in H0, H1.
  assert (a = 0%nat \/ a = 1%nat) as [-> | ->] by lia; lra.
Qed.
Lemma line_amps : forall r, analysed line_mat line_smpls r -> nth 0 (an_amps r) 0 = 5 / 6 /\ nth 1 (an_amps r) 0 = 3 / 2 /\ an_suf r = 125 / 6.
Proof.
  intros r Z. pose proof (z_normal _ _ _ Z 0%nat ltac:(cbn; lia)) as H0. pose proof (z_normal _ _ _ Z 1%nat ltac:(cbn; lia)) as H1.
  rewrite (z_proj _ _ _ Z) in H0, H1 by (cbn; lia). pose proof (z_suf _ _ _ Z) as HS. change (rows line_mat) with 2%nat in *. rewrite !so_front, !so_0 in H0, H1. rewrite !so_front, !so_0 in HS.
  rewrite !(z_metric_is _ _ _ Z) in H0, H1 by (cbn; lia). rewrite !(z_proj _ _ _ Z) in HS by (cbn; lia). cbn in H0, H1, HS. rewrite HS.
  assert (A1 : nth 1 (an_amps r) 0 = 3 / 2) by lra. assert (A0 : nth 0 (an_amps r) 0 = 5 / 6) by lra. rewrite A0, A1. repeat split. lra.
Qed.

(** Two proportional rows *)
Definition flat_mat : mat := Mat 2 2 [1; 2; 2; 4].
Lemma flat_dependent : ~ independent flat_mat.
Proof.
  intro H. assert (E : (fun a : nat => if Nat.eqb a 0 then 2 else -1) 0%nat = 0). { apply (H (fun a => if Nat.eqb a 0 then 2 else -1)); [|cbn; lia]. intros i I. cbn in I. assert (i = 0%nat \/ i = 1%nat) as [-> | ->] by lia; cbn; lra. }
  cbn in E. lra.
Qed.

(** A factor with something above its diagonal *)
Definition fact_mat : mat := Mat 2 2 [2; 7; 1; 1].
Lemma fact_square : square fact_mat 2.
Proof. repeat split. Qed.
Lemma fact_diag : forall i, (i < 2)%nat -> entry fact_mat i i <> 0.
Proof. intros i I. assert (i = 0%nat \/ i = 1%nat) as [-> | ->] by lia; cbn; lra. Qed.
Lemma fact_covar : covar fact_mat = Ok (Mat 2 2 [1 / 2; - (1 / 2); - (1 / 2); 1]).
Proof. cbn. do 2 f_equal. repeat (f_equal; try lra). Qed.
(** More columns than rows *)
Definition wide_mat : mat := Mat 2 3 [2; 0; 0; 1; 1; 0].
Lemma wide_covar : covar wide_mat = Ok (Mat 2 3 [1 / 4; 0; 0; 1; 1; 0]).
Proof. cbn. do 2 f_equal. repeat (f_equal; try lra). Qed.

(** ** A constant and a line of slope w *)
Definition slope_basis : list (list R -> list R -> option unit -> res bval) :=
  [fun _ _ _ => Ok (BScalar 1); fun p absc _ => Ok (BVec (map (fun t => nth 0 p 0 * t) absc))].
Definition slope_data : list (list R) := [[0; 1]; [1; 2]; [2; 4]].
Definition slope_ba : ba unit := Ba unit slope_basis [0; 1; 2] [1; 1; 1] None [1 / 1; 2 / 1; 4 / 1] (square_sum [1 / 1; 2 / 1; 4 / 1]) (fresh_memo 2 3).
Lemma slope_made : new_ba unit slope_basis slope_data 2 (Some 1) None = Ok slope_ba.
Proof. reflexivity. Qed.
Definition slope_mat (w : R) : mat := Mat 2 3 [1; 1; 1; 0; w; 2 * w].
Lemma slope_design : forall w, design slope_basis None slope_data (Some 1) [w] (slope_mat w).
Proof.
  intro w. split; [reflexivity|]. split; [reflexivity|]. split; [reflexivity|]. exists None. split; [reflexivity|]. intros [|[|a]] g H; cbn in H; [injection H as <-|injection H as <-|destruct a; discriminate].
  - eexists. split; [reflexivity|]. split; [exact I|]. intros i Hi. cbn in Hi. assert (i = 0%nat \/ i = 1%nat \/ i = 2%nat) as [-> | [-> | ->]] by lia; cbn; field.
  - eexists. split; [reflexivity|]. split; [reflexivity|]. intros i Hi. cbn in Hi. assert (i = 0%nat \/ i = 1%nat \/ i = 2%nat) as [-> | [-> | ->]] by lia; cbn; field.
Qed.
Lemma slope_independent : forall w, w <> 0 -> independent (slope_mat w).
Proof.
  intros w W x H a A. cbn in A. pose proof (H 0%nat ltac:(cbn; lia)) as H0. pose proof (H 1%nat ltac:(cbn; lia)) as H1. cbn in H0, H1.
  assert (X0 : x 0%nat = 0) by lra. assert (X1 : x 1%nat * w = 0) by lra. apply Rmult_integral in X1. assert (a = 0%nat \/ a = 1%nat) as [-> | ->] by lia; [exact X0|]. destruct X1; [assumption|contradiction].
Qed.
Lemma slope_flat : ~ independent (slope_mat 0).
Proof.
  intro H. assert (E : (fun a : nat => if Nat.eqb a 0 then 0 else 1) 1%nat = 0). { apply (H (fun a => if Nat.eqb a 0 then 0 else 1)); [|cbn; lia]. intros i I. cbn in I. assert (i = 0%nat \/ i = 1%nat \/ i = 2%nat) as [-> | [-> | ->]] by lia; cbn; lra. }
  cbn in E. lra.
Qed.
Lemma slope_std : ba_std unit slope_ba = line_smpls.
Proof. cbn. unfold line_smpls. repeat (f_equal; try lra). Qed.
Lemma slope_at : exists r, ba_at unit slope_ba [1] = Ok r /\ nth 0 (an_amps r) 0 = 5 / 6 /\ nth 1 (an_amps r) 0 = 3 / 2 /\ length (an_amps r) = 2%nat.
Proof.
  unfold ba_at, res_at. rewrite (design_mat unit slope_basis slope_data 2 (Some 1) None slope_ba slope_made [1] _ (slope_design 1)). rewrite slope_std.
  assert (E : slope_mat 1 = line_mat) by (unfold slope_mat, line_mat; repeat (f_equal; try lra)). rewrite E.
  destruct (analysis_ok line_mat line_smpls line_shaped eq_refl line_independent) as [r [ER AN]]. exists r. split; [exact ER|]. destruct (line_amps r AN) as [A0 [A1 _]]. split; [exact A0|]. split; [exact A1|]. exact (z_alen _ _ _ AN).
Qed.

(** Residuals of a second call for the same parameters, with a failing call in
    between *)
Definition slope_story : list call := [Marg [1]; Marg [0]].
Definition slope_back (m : mat) (r : analysis) : ba unit :=
  Ba unit slope_basis [0; 1; 2] [1; 1; 1] None [1 / 1; 2 / 1; 4 / 1] (square_sum [1 / 1; 2 / 1; 4 / 1])
    (Memo (Some [1]) (Some (an_suf r)) (Some (square_sum [1 / 1; 2 / 1; 4 / 1] - an_suf r)) (Some (1 / an_rdet r)) m (Some (an_metric r, an_L r, an_proj r, an_amps r))).
Definition raw_mat (w : R) : mat := Mat 2 3 [1 / 1; 1 / 1; 1 / 1; w * 0 / 1; w * 1 / 1; w * 2 / 1].
Lemma raw_is : forall w, raw_mat w = slope_mat w.
Proof. intro w. unfold raw_mat, slope_mat. repeat (f_equal; try lra). Qed.
Lemma slope_fails : metricAnalysis (raw_mat 0) [1 / 1; 2 / 1; 4 / 1] = Err ValueError.
Proof. apply analysis_rejects; [reflexivity|reflexivity|]. rewrite raw_is. exact slope_flat. Qed.
Lemma slope_works : exists r, metricAnalysis (raw_mat 1) [1 / 1; 2 / 1; 4 / 1] = Ok r /\ nth 0 (an_amps r) 0 = 5 / 6 /\ nth 1 (an_amps r) 0 = 3 / 2 /\ length (an_amps r) = 2%nat /\ Reqb (an_rdet r) 0 = false.
Proof.
  assert (E : raw_mat 1 = line_mat) by (unfold raw_mat, line_mat; repeat (f_equal; try lra)). rewrite E. change [1 / 1; 2 / 1; 4 / 1] with (ba_std unit slope_ba). rewrite slope_std.
  destruct (analysis_ok line_mat line_smpls line_shaped eq_refl line_independent) as [r [ER AN]]. exists r. split; [exact ER|]. destruct (line_amps r AN) as [A0 [A1 _]]. split; [exact A0|]. split; [exact A1|]. split; [exact (z_alen _ _ _ AN)|].
  pose proof (rdet_pos _ _ _ AN). destruct (Reqb (an_rdet r) 0) eqn:Q; [apply Reqb_spec in Q; lra|reflexivity].
Qed.
Lemma slope_first : forall r, metricAnalysis (raw_mat 1) [1 / 1; 2 / 1; 4 / 1] = Ok r -> Reqb (an_rdet r) 0 = false -> calc_marg_stats true unit [1] slope_ba = (slope_back (raw_mat 1) r, Ok tt).
Proof.
  intros r H Q. unfold calc_marg_stats. cbn [is_pars slope_ba ba_memo m_pars fresh_memo ba_setup ba_basis ba_absc ba_sigs ba_std ba_dsqr]. unfold on_memo, bind. cbn [ba_memo ba_basis ba_absc ba_sigs ba_setup ba_std ba_dsqr].
  change (fill_rows unit slope_basis [1] [0; 1; 2] None [1; 1; 1] 0 (ba_memo unit slope_ba)) with (Memo None None None None (raw_mat 1) None, @Ok unit tt).
  unfold finish. cbn [m_modvals]. rewrite H, Q. reflexivity.
Qed.
Lemma slope_second : forall r, calc_marg_stats true unit [0] (slope_back (raw_mat 1) r) = (slope_back (raw_mat 0) r, Err ValueError).
Proof.
  intros r. unfold calc_marg_stats. cbn [is_pars slope_back ba_memo m_pars same_pars]. assert (Q : Reqb 0 1 = false) by (destruct (Reqb 0 1) eqn:E; [apply Reqb_spec in E; lra|reflexivity]). rewrite Q. cbn [andb ba_setup slope_back]. unfold on_memo, bind. cbn [ba_memo ba_basis ba_absc ba_sigs ba_setup ba_std ba_dsqr slope_back].
  match goal with |- context [fill_rows unit slope_basis [0] [0; 1; 2] None [1; 1; 1] 0 ?m] => change (fill_rows unit slope_basis [0] [0; 1; 2] None [1; 1; 1] 0 m) with (Memo (m_pars m) (m_suf m) (m_Q m) (m_Jac m) (raw_mat 0) (m_done m), @Ok unit tt) end.
  unfold finish. cbn [m_modvals]. rewrite slope_fails. reflexivity.
Qed.
Lemma slope_resid : forall m r, residuals true unit [1] (slope_back m r) = (slope_back m r, Ok (minus [1 / 1; 2 / 1; 4 / 1] (weighted_rows (an_amps r) m))).
Proof.
  intros m r. unfold residuals, bind, update. cbn [slope_back ba_memo m_pars is_pars same_pars]. rewrite (proj2 (Reqb_spec 1 1) eq_refl). reflexivity.
Qed.
Lemma slope_stale : exists l l', snd (residuals true unit [1] slope_ba) = Ok l /\ snd (residuals true unit [1] (after_calls slope_story slope_ba)) = Ok l' /\ nth 1 l 0 = - (1 / 3) /\ nth 1 l' 0 = 7 / 6.
Proof.
  destruct slope_works as [r [H [A0 [A1 [AL Q]]]]]. pose proof (slope_first r H Q) as S1. pose proof (slope_second r) as S2.
  exists (minus [1 / 1; 2 / 1; 4 / 1] (weighted_rows (an_amps r) (raw_mat 1))), (minus [1 / 1; 2 / 1; 4 / 1] (weighted_rows (an_amps r) (raw_mat 0))). split; [|split; [|split]].
  - unfold residuals, bind, update. cbn [slope_ba ba_memo m_pars is_pars fresh_memo negb]. change (Ba unit slope_basis [0; 1; 2] [1; 1; 1] None [1 / 1; 2 / 1; 4 / 1] (square_sum [1 / 1; 2 / 1; 4 / 1]) (fresh_memo 2 3)) with slope_ba. fold slope_ba. rewrite S1. reflexivity.
  - unfold after_calls, slope_story. cbn [fold_left]. unfold call_ba at 2. cbn [call_with]. unfold outcome at 1. cbn [fst]. unfold marg_stats at 1, bind at 1. rewrite S1. cbn [get ret fst]. unfold bind at 1, get at 1, ret at 1. cbn [fst].
    unfold call_ba. cbn [call_with]. unfold outcome. cbn [fst]. unfold marg_stats, bind. rewrite S2. cbn [fst]. now rewrite slope_resid.
  - rewrite nth_minus by (cbn; lia). rewrite weighted_is by (cbn; lia). rewrite raw_is. cbn [rows slope_mat]. rewrite !so_front, !so_0. rewrite A0, A1. cbn. lra.
  - rewrite nth_minus by (cbn; lia). rewrite weighted_is by (cbn; lia). rewrite raw_is. cbn [rows slope_mat]. rewrite !so_front, !so_0. rewrite A0, A1. cbn. lra.
Qed.

(** ** The same model as an object whose state is the slope *)
Definition slope_set (p : list R) (_ : R) : R * res unit := (nth 0 p 0, Ok tt).
Definition slope_fns : list (R -> res bval) := [fun _ => Ok (BScalar 1); fun w => Ok (BVec [w * 0; w * 1; w * 2])].
Lemma slope_settles : settles R slope_set slope_fns.
Proof. intros p o1 o2. split; reflexivity. Qed.
Definition slope_bo : bo R := new_bo R slope_fns line_smpls 7.
Definition obj_mat (w : R) : mat := Mat 2 3 [1; 1; 1; w * 0; w * 1; w * 2].
Lemma obj_mat_is : forall w, obj_mat w = slope_mat w.
Proof. intro w. unfold obj_mat, slope_mat. repeat (f_equal; try lra). Qed.
Definition obj_back (w : R) (m : mat) (r : analysis) : bo R :=
  Bo R w (square_sum line_smpls) (Memo (Some [1]) (Some (an_suf r)) (Some (square_sum line_smpls - an_suf r)) (Some (1 / an_rdet r)) m (Some (an_metric r, an_L r, an_proj r, an_amps r))).
Definition slope_ostory : list ocall := [OCall (Marg [1]); Touch [3]; OCall (Marg [0])].
Lemma obj_stale : exists l l', snd (residuals_o true R slope_set slope_fns line_smpls [1] slope_bo) = Ok l /\
  snd (residuals_o true R slope_set slope_fns line_smpls [1] (after_ocalls R slope_set slope_fns line_smpls slope_ostory slope_bo)) = Ok l' /\ nth 1 l 0 = - (1 / 3) /\ nth 1 l' 0 = 7 / 6.
Proof.
  assert (E : obj_mat 1 = line_mat) by (unfold obj_mat, line_mat; repeat (f_equal; try lra)).
  destruct (analysis_ok line_mat line_smpls line_shaped eq_refl line_independent) as [r [ER AN]]. destruct (line_amps r AN) as [A0 [A1 _]]. pose proof (rdet_pos _ _ _ AN).
  assert (Q : Reqb (an_rdet r) 0 = false) by (destruct (Reqb (an_rdet r) 0) eqn:Q; [apply Reqb_spec in Q; lra|reflexivity]). rewrite <- E in ER.
  assert (F : metricAnalysis (obj_mat 0) line_smpls = Err ValueError) by (apply analysis_rejects; [reflexivity|reflexivity|]; rewrite obj_mat_is; exact slope_flat).
  assert (S1 : calc_marg_stats_o true R slope_set slope_fns line_smpls [1] slope_bo = (obj_back 1 (obj_mat 1) r, Ok tt)).
  { unfold calc_marg_stats_o. cbn [is_pars slope_bo new_bo bo_memo m_pars fresh_memo slope_set bo_obj nth]. unfold bind.
    match goal with |- context [fill_rows_o R line_smpls slope_fns 1 0 ?m] => change (fill_rows_o R line_smpls slope_fns 1 0 m) with (Memo None None None None (obj_mat 1) None, @Ok unit tt) end.
    unfold finish. cbn [m_modvals]. rewrite ER, Q. reflexivity. }
  assert (S2 : calc_marg_stats_o true R slope_set slope_fns line_smpls [0] (obj_back 3 (obj_mat 1) r) = (obj_back 0 (obj_mat 0) r, Err ValueError)).
  { unfold calc_marg_stats_o. cbn [is_pars obj_back bo_memo m_pars same_pars]. assert (Q1 : Reqb 0 1 = false) by (destruct (Reqb 0 1) eqn:E1; [apply Reqb_spec in E1; lra|reflexivity]). rewrite Q1. cbn [andb slope_set bo_obj nth]. unfold bind.
    match goal with |- context [fill_rows_o R line_smpls slope_fns 0 0 ?m] => change (fill_rows_o R line_smpls slope_fns 0 0 m) with (Memo (m_pars m) (m_suf m) (m_Q m) (m_Jac m) (obj_mat 0) (m_done m), @Ok unit tt) end.
    unfold finish. cbn [m_modvals]. rewrite F. reflexivity. }
  assert (S3 : forall w m, residuals_o true R slope_set slope_fns line_smpls [1] (obj_back w m r) = (obj_back w m r, Ok (minus line_smpls (weighted_rows (an_amps r) m)))).
  { intros w m. unfold residuals_o, bind, update_o. cbn [obj_back bo_memo m_pars is_pars same_pars]. rewrite (proj2 (Reqb_spec 1 1) eq_refl). reflexivity. }
  exists (minus line_smpls (weighted_rows (an_amps r) (obj_mat 1))), (minus line_smpls (weighted_rows (an_amps r) (obj_mat 0))). split; [|split; [|split]].
  - unfold residuals_o, bind, update_o. cbn [slope_bo new_bo bo_memo m_pars is_pars fresh_memo negb]. change (Bo R 7 (square_sum line_smpls) (fresh_memo (length slope_fns) (length line_smpls))) with slope_bo. rewrite S1. reflexivity.
  - assert (T : after_ocalls R slope_set slope_fns line_smpls slope_ostory slope_bo = obj_back 0 (obj_mat 0) r); [|now rewrite T, S3].
    unfold after_ocalls, slope_ostory. cbn [fold_left].
    assert (C1 : fst (call_bo R slope_set slope_fns line_smpls (OCall (Marg [1])) slope_bo) = obj_back 1 (obj_mat 1) r) by (cbn [call_bo]; unfold outcome, marg_stats_o, bind; rewrite S1; reflexivity). rewrite C1.
    change (fst (call_bo R slope_set slope_fns line_smpls (Touch [3]) (obj_back 1 (obj_mat 1) r))) with (obj_back 3 (obj_mat 1) r).
    cbn [call_bo]. unfold outcome, marg_stats_o, bind. now rewrite S2.
  - rewrite nth_minus by (cbn; lia). rewrite weighted_is by (cbn; lia). rewrite obj_mat_is. cbn [rows slope_mat]. rewrite !so_front, !so_0. rewrite A0, A1. cbn. lra.
  - rewrite nth_minus by (cbn; lia). rewrite weighted_is by (cbn; lia). rewrite obj_mat_is. cbn [rows slope_mat]. rewrite !so_front, !so_0. rewrite A0, A1. cbn. lra.
Qed.
