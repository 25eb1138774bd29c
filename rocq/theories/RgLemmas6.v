(** wlss. *)

From Coq Require Import List Bool Arith Reals Lra Lia.
From Verif Require Import Exn Instances McModel BaModel RgModel RgSpec RgLemmas RgLemmas2 RgLemmas3 RgLemmas5.
Import ListNotations.
Open Scope R_scope.

Section Weights.
Variable t : list (R * R * R).
Variable w : R -> R.
Hypothesis Hw : forall p, In p t -> 0 < w (snd p).
Hypothesis Hx : exists p p', In p t /\ In p' t /\ fst (fst p) <> fst (fst p').
Let xx (p : R * R * R) := fst (fst p).
Let yy (p : R * R * R) := snd (fst p).
Let W := Sum (fun p => / w (snd p)) t.
Let Wx := Sum (fun p => xx p / w (snd p)) t.
Let Wy := Sum (fun p => yy p / w (snd p)) t.
Let Wxx := Sum (fun p => xx p * xx p / w (snd p)) t.
Let Wxy := Sum (fun p => xx p * yy p / w (snd p)) t.
Let D := W * Wxx - Wx ^ 2.
Lemma quad_eq al be : Sum (fun p => (al + be * xx p) ^ 2 / w (snd p)) t = al ^ 2 * W + 2 * al * be * Wx + be ^ 2 * Wxx.
Proof.
  rewrite (Sum_ext _ (fun p => al ^ 2 * / w (snd p) + (2 * al * be * (xx p / w (snd p)) + be ^ 2 * (xx p * xx p / w (snd p))))).
  - rewrite !Sum_add, !Sum_scal. unfold W, Wx, Wxx. ring.
  - intros p Hp. pose proof (Hw p Hp). field. lra.
Qed.
Lemma quad_pos al be : al <> 0 \/ be <> 0 -> 0 < Sum (fun p => (al + be * xx p) ^ 2 / w (snd p)) t.
Proof.
  intros H. assert (G : forall p, In p t -> 0 <= (al + be * xx p) ^ 2 / w (snd p)).
  { intros p Hp. apply Rmult_le_pos; [apply pow2_ge_0|left; apply Rinv_0_lt_compat, Hw, Hp]. }
  destruct (Rle_lt_or_eq_dec _ _ (Sum_nonneg _ _ G)) as [?|E]; [easy|]. exfalso. symmetry in E. pose proof (Sum_zero _ _ G E) as Z.
  assert (Z' : forall p, In p t -> al + be * xx p = 0).
  { intros p Hp. specialize (Z p Hp). pose proof (Hw p Hp). cbv beta in Z. destruct (Req_dec (al + be * xx p) 0) as [?|N]; [easy|]. apply pow2_gt_0 in N.
    assert (0 < (al + be * xx p) ^ 2 / w (snd p)) by now apply Rdiv_lt_0_compat. lra. }
  destruct Hx as (p & p' & I & I' & N). pose proof (Z' p I) as E1. pose proof (Z' p' I') as E2. fold (xx p) (xx p') in N.
  assert (F : be * (xx p - xx p') = 0) by lra. apply Rmult_integral in F. destruct F as [F|F]; [|lra]. rewrite F in *. destruct H as [H|H]; lra.
Qed.
Lemma W_pos : 0 < W. Proof. pose proof (quad_pos 1 0 ltac:(left; lra)) as P. rewrite quad_eq in P. lra. Qed.
Lemma D_pos : 0 < D.
Proof.
  pose proof W_pos. pose proof (quad_pos (- Wx) W ltac:(right; lra)) as P. rewrite quad_eq in P.
  replace ((- Wx) ^ 2 * W + 2 * - Wx * W * Wx + W ^ 2 * Wxx) with (W * D) in P by (unfold D; ring). apply (Rmult_lt_reg_l W); [easy|]. lra.
Qed.
Let b := (W * Wxy - Wx * Wy) / D.
Let a := (Wxx * Wy - Wx * Wxy) / D.
Lemma weighted_best a' b' : a' <> a \/ b' <> b -> weighted t w a b < weighted t w a' b'.
Proof.
  intros H. pose proof D_pos as P. assert (E : weighted t w a' b' = weighted t w a b + Sum (fun p => ((a' - a) + (b' - b) * xx p) ^ 2 / w (snd p)) t).
  { assert (N1 : Wy = a * W + b * Wx) by (unfold a, b; apply (Rmult_eq_reg_r D); [|lra]; field_simplify; [unfold D; ring|lra]).
    assert (N2 : Wxy = a * Wx + b * Wxx) by (unfold a, b; apply (Rmult_eq_reg_r D); [|lra]; field_simplify; [unfold D; ring|lra]).
    assert (C : Sum (fun p => (yy p - (a + b * xx p)) * ((a' - a) + (b' - b) * xx p) / w (snd p)) t = 0).
    { rewrite (Sum_ext _ (fun p => (a' - a) * (yy p / w (snd p)) + ((b' - b) * (xx p * yy p / w (snd p)) + (- (a * (a' - a)) * / w (snd p) + ((- (b * (a' - a)) - a * (b' - b)) * (xx p / w (snd p)) + - (b * (b' - b)) * (xx p * xx p / w (snd p))))))).
      - rewrite !Sum_add, !Sum_scal. fold W Wx Wy Wxx Wxy. rewrite N1, N2. ring.
      - intros p Hp. pose proof (Hw p Hp). field. lra. }
    unfold weighted. rewrite (Sum_ext _ (fun p => (yy p - (a + b * xx p)) ^ 2 / w (snd p) + (-2 * ((yy p - (a + b * xx p)) * ((a' - a) + (b' - b) * xx p) / w (snd p)) + ((a' - a) + (b' - b) * xx p) ^ 2 / w (snd p)))).
    - rewrite !Sum_add, Sum_scal, C. unfold xx, yy. ring.
    - intros p Hp. pose proof (Hw p Hp). unfold xx, yy. field. lra. }
  rewrite E. assert (0 < Sum (fun p => ((a' - a) + (b' - b) * xx p) ^ 2 / w (snd p)) t) by (apply quad_pos; lra). lra.
Qed.
Lemma spread_eq : wspread t w = D / W.
Proof.
  pose proof W_pos. unfold wspread, wmean. fold (xx). fold Wx. change (RgSpec.wsum t w) with W.
  rewrite (Sum_ext _ (fun p => (- (Wx / W) + 1 * xx p) ^ 2 / w (snd p))).
  - rewrite quad_eq. unfold D. field. lra.
  - intros p Hp. pose proof (Hw p Hp). unfold xx. change (Sum (fun p0 => fst (fst p0) / w (snd p0)) t) with Wx. field. lra.
Qed.
Lemma bvar_eq : W / D = / wspread t w.
Proof. rewrite spread_eq. pose proof W_pos. pose proof D_pos. field. lra. Qed.
Lemma avar_eq : Wxx / D = / RgSpec.wsum t w + wmean t w ^ 2 / wspread t w.
Proof. rewrite spread_eq. pose proof W_pos. pose proof D_pos. unfold wmean. change (RgSpec.wsum t w) with W. change (Sum (fun p => fst (fst p) / w (snd p)) t) with Wx. unfold D in *. field. lra. Qed.
End Weights.

Lemma in_ext_nsum {A} (f : A -> num) g l : (forall p, In p l -> f p = Num (g p)) -> nsum f l = Num (Sum g l).
Proof.
  intros H. unfold nsum. assert (G : forall s, fold_left (fun s p => (s + f p)%num) l (Num s) = Num (s + Sum g l)).
  { induction l as [|p l IH]; intros s; cbn [fold_left Sum fold_right]; [f_equal; lra|].
    rewrite (H p (or_introl eq_refl)). change (Num s + Num (g p))%num with (Num (s + g p)). rewrite IH; [|intros; apply H; now right]. fold (Sum g l). f_equal. lra. }
  rewrite G. f_equal. lra.
Qed.
Lemma in_bad_nsum {A} (f : A -> num) l : (exists p, In p l /\ f p = Bad) -> nsum f l = Bad.
Proof.
  unfold nsum. assert (B : forall l, fold_left (fun s p => (s + f p)%num) l Bad = Bad) by (induction l0 as [|p l0 IH]; [easy|exact IH]).
  generalize (Num 0). induction l as [|p l IH]; intros s (q & Hq & E); [easy|]. cbn [fold_left].
  destruct Hq as [->|Hq]; [|apply IH; eauto]. rewrite E. destruct s; apply B.
Qed.
Lemma Sum_left {A} (f : A -> R) (l : list A) (e : list R) : length l = length e -> Sum (fun t => f (fst t)) (combine l e) = Sum f l.
Proof. revert e; induction l as [|p l IH]; intros [|b e] H; try discriminate; [easy|]. cbn. fold (Sum (fun t => f (fst t)) (combine l e)) (Sum f l). rewrite IH; [easy|now injection H]. Qed.
Lemma Sum_right {A} (f : R -> R) (l : list A) (e : list R) : length l = length e -> Sum (fun t => f (snd t)) (combine l e) = Sum f e.
Proof. revert e; induction l as [|p l IH]; intros [|b e] H; try discriminate; [easy|]. cbn. fold (Sum (fun t => f (snd t)) (combine l e)) (Sum f e). rewrite IH; [easy|now injection H]. Qed.

Section Wlss.
Variables x y es : list R.
Hypothesis Hlen : length x = length y.
Hypothesis He : length es = length x.
Hypothesis Hn : (2 <= length x)%nat.
Let pts := combine x y.
Hypothesis Hsxy : Sxy pts <> 0.
Let t := combine pts es.
Let ev := left_over pts es.
Let w (e : R) := ev + e ^ 2.
Lemma len_pts : length pts = length x. Proof. unfold pts. rewrite combine_length. lia. Qed.
Lemma ne_pts : pts <> []. Proof. apply pts_ne; [easy|lia]. Qed.
Lemma data_eq : combine (combine (map Num x) (map Num y)) es = map (fun p => (Num (fst (fst p)), Num (snd (fst p)), snd p)) t.
Proof.
  unfold t, pts. clear -Hlen He. revert y es Hlen He. induction x as [|a l IH]; intros [|b m] [|c e] H1 H2; try discriminate; [easy|]. cbn. rewrite IH; [easy|now injection H1|now injection H2].
Qed.
Let W := Sum (fun p => / w (snd p)) t.
Let Wx := Sum (fun p => fst (fst p) / w (snd p)) t.
Let Wy := Sum (fun p => snd (fst p) / w (snd p)) t.
Let Wxx := Sum (fun p => fst (fst p) * fst (fst p) / w (snd p)) t.
Let Wxy := Sum (fun p => fst (fst p) * snd (fst p) / w (snd p)) t.
Let D := W * Wxx - Wx ^ 2.
Lemma evar_eq : exists X, sixlin x y = Some X /\ x_x X = map Num x /\ x_y X = map Num y /\ pick (x_a X) 0 = Num (through pts (slope1 pts)) /\ pick (x_b X) 0 = Num (slope1 pts).
Proof.
  eexists. split; [apply (sixlin_delta x y Hlen ltac:(lia) Hsxy)|]. easy.
Qed.
Lemma res_sum : Sum (fun p => snd p - through pts (slope1 pts) - slope1 pts * fst p) pts = 0.
Proof.
  rewrite (Sum_ext _ (fun p => (snd p - my pts) + - slope1 pts * (fst p - mx pts))) by (intros; unfold through; ring).
  rewrite Sum_add, Sum_scal, dev_x, dev_y by apply ne_pts. ring.
Qed.
(** The estimates of the scatter *)
Lemma wlss_f_start : wlss_f x y es = 
  let d := map (fun p => (Num (fst (fst p)), Num (snd (fst p)), snd p)) t in
  let star e := (Num ev + (Num e)²)%num in
  let wsum := nsum (fun p => let '(x, y, e) := p in (Num 1 / star e)%num) d in
  let wsumx1 := nsum (fun p => let '(x, y, e) := p in (x / star e)%num) d in
  let wsumx1y2 := nsum (fun p => let '(x, y, e) := p in (x * y / star e)%num) d in
  let wsumy2 := nsum (fun p => let '(x, y, e) := p in (y / star e)%num) d in
  let wsumx1x1 := nsum (fun p => let '(x, y, e) := p in (x * x / star e)%num) d in
  let denom := (wsum * wsumx1x1 - wsumx1²)%num in
  Some (Wres ((wsumx1x1 * wsumy2 - wsumx1 * wsumx1y2) / denom) (wsumx1x1 / denom)
             ((wsum * wsumx1y2 - wsumx1 * wsumy2) / denom) (wsum / denom) (Num ev))%num.
Proof.
  destruct evar_eq as (X & E1 & E2 & E3 & E4 & E5). cbv beta delta [wlss_f]. rewrite E1, E2, E3, E4, E5. cbv iota. rewrite data_eq.
  assert (N : 0 < size pts) by apply size_pos, ne_pts.
  assert (L : length pts = length es) by (rewrite len_pts; lia).
  step (size pts). { now apply count_eq. }
  name. name.
  step 0. { rewrite nsum_map. rewrite (nsum_ok _ (fun p => (fun q => snd q - through pts (slope1 pts) - slope1 pts * fst q) (fst p))) by (intros p; nums; easy).
    pose proof (Sum_left (fun q => snd q - through pts (slope1 pts) - slope1 pts * fst q) pts es L) as SL. cbv beta in SL. unfold t. rewrite SL, res_sum. rewrite ndiv_ok by lra. f_equal. field. lra. }
  step (vertical pts (through pts (slope1 pts)) (slope1 pts) / size pts).
  { rewrite nsum_map. rewrite (nsum_ok _ (fun p => (fun q => (snd q - (through pts (slope1 pts) + slope1 pts * fst q)) ^ 2) (fst p))) by (intros p; nums; f_equal; ring).
    pose proof (Sum_left (fun q => (snd q - (through pts (slope1 pts) + slope1 pts * fst q)) ^ 2) pts es L) as SL. cbv beta in SL. unfold t. rewrite SL. rewrite ndiv_ok by lra. easy. }
  step (Sum (fun e => e ^ 2) es / size pts).
  { rewrite nsum_map. rewrite (nsum_ok _ (fun p => (fun e => e ^ 2) (snd p))) by (intros p; cbn [snd]; nums; easy). pose proof (Sum_right (fun e => e ^ 2) pts es L) as SL. cbv beta in SL. unfold t. rewrite SL. rewrite ndiv_ok by lra. easy. }
  step ev. { nums. f_equal. unfold ev, left_over, through. field. lra. }
  easy.
Qed.
Hypothesis Hw : forall e, In e es -> 0 < w e.
Lemma in_t p : In p t -> 0 < w (snd p).
Proof. intros H. apply Hw. unfold t in H. destruct p as [q e]. now apply in_combine_r in H. Qed.
Lemma two_x : exists p p', In p t /\ In p' t /\ fst (fst p) <> fst (fst p').
Proof.
  assert (L : length pts = length es) by (rewrite len_pts; lia).
  assert (T : forall q, In q pts -> exists p, In p t /\ fst p = q).
  { intros q Hq. unfold t. clear -L Hq. revert es L. induction pts as [|p u IH]; intros [|g v] L; try discriminate; [easy|]. destruct Hq as [->|Hq].
    - exists (q, g). split; [now left|easy].
    - destruct (IH Hq v ltac:(now injection L)) as (p' & I & E). exists p'. split; [now right|easy]. }
  assert (exists q0, In q0 pts) as (q0 & Hq0) by (pose proof ne_pts; destruct pts as [|q0 u]; [easy|exists q0; now left]).
  destruct (T q0 Hq0) as (p0 & Hp0 & E0). set (a := fst q0).
  destruct (Classical_Prop.classic (exists p, In p t /\ a <> fst (fst p))) as [(p & Hp & N)|C].
  - exists p0, p. split; [easy|]. split; [easy|]. now rewrite E0.
  - exfalso. apply Hsxy. assert (G : forall q, In q pts -> fst q = a).
    { intros q Hq. apply Classical_Prop.NNPP. intros N. apply C. destruct (T q Hq) as (p & Hp & E). exists p. split; [easy|]. rewrite E. auto. }
    assert (M : mx pts = a). { unfold mx. rewrite (Sum_ext _ (fun _ => a)) by exact G. rewrite Sum_const. assert (0 < size pts) by apply size_pos, ne_pts. field. lra. }
    unfold Sxy. rewrite (Sum_ext _ (fun _ => 0)); [rewrite Sum_const; ring|]. intros q Hq. rewrite (G q Hq), M. ring.
Qed.
Lemma wlss_f_ok : wlss_f x y es = Some (Wres (Num ((Wxx * Wy - Wx * Wxy) / D)) (Num (Wxx / D)) (Num ((W * Wxy - Wx * Wy) / D)) (Num (W / D)) (Num ev)).
Proof.
  rewrite wlss_f_start. pose proof (D_pos t w in_t two_x) as P. change (0 < D) in P.
  assert (Q : forall p, In p t -> ev + snd p ^ 2 <> 0) by (intros p Hp; pose proof (in_t p Hp) as G; unfold w in G; lra).
  name. name.
  step W. { rewrite nsum_map. apply in_ext_nsum. intros p Hp. nums. rewrite ndiv_ok by now apply Q. f_equal. unfold Rdiv. apply Rmult_1_l. }
  step Wx. { rewrite nsum_map. apply in_ext_nsum. intros p Hp. nums. now rewrite ndiv_ok by now apply Q. }
  step Wxy. { rewrite nsum_map. apply in_ext_nsum. intros p Hp. nums. now rewrite ndiv_ok by now apply Q. }
  step Wy. { rewrite nsum_map. apply in_ext_nsum. intros p Hp. nums. now rewrite ndiv_ok by now apply Q. }
  step Wxx. { rewrite nsum_map. apply in_ext_nsum. intros p Hp. nums. now rewrite ndiv_ok by now apply Q. }
  step D. { now nums. }
  assert (D <> 0) by lra. nums. now rewrite !ndiv_ok by easy.
Qed.
End Wlss.

Lemma nsqrt_pos a : 0 < a -> nsqrt (Num a) = Num (sqrt a).
Proof. intros. apply nsqrt_ok. lra. Qed.
Lemma nsqrt_neg a : a < 0 -> nsqrt (Num a) = Bad.
Proof. intros H. cbn. now rewrite (proj2 (Rltb_spec a 0) H). Qed.

Lemma wlss_l x y yerr es : spread (length x) yerr = Ok es -> length es = length x -> length x = length y -> (2 <= length x)%nat ->
  let pts := combine x y in
  let ev := left_over pts es in
  let t := combine pts es in
  let w e := ev + e ^ 2 in
  Sxy pts <> 0 -> (forall e, In e es -> 0 < w e) ->
  exists r scat a b, wlss x y yerr = Ok (r, scat) /\ r_inter r = Num a /\ r_slope r = Num b /\
    (forall a' b', a' <> a \/ b' <> b -> weighted t w a b < weighted t w a' b') /\
    r_serr r = Num (sqrt (/ wspread t w)) /\ r_ierr r = Num (sqrt (/ RgSpec.wsum t w + wmean t w ^ 2 / wspread t w)) /\
    (0 <= ev -> scat = Num (sqrt ev)) /\ (ev < 0 -> scat = Bad) /\
    r_x r = x /\ r_y r = y /\ r_npts r = length x /\ range x (map (fun _ => 0) x) (r_xmin r) (r_xmax r) /\ range y es (r_ymin r) (r_ymax r).
Proof.
  intros Hs He Hlen Hn pts ev t w Hsxy Hw.
  pose proof (wlss_f_ok x y es Hlen He Hn Hsxy Hw) as F. cbv zeta in F.
  pose proof (in_t x y es Hw) as It. pose proof (two_x x y es Hlen He Hn Hsxy Hw) as Tx.
  change (forall p, In p t -> 0 < w (snd p)) in It.
  pose proof (weighted_best t w It Tx) as B. pose proof (bvar_eq t w It Tx) as Vb. pose proof (avar_eq t w It Tx) as Va. pose proof (D_pos t w It Tx) as PD. pose proof (W_pos t w It Tx) as PW. pose proof (spread_eq t w It Tx) as Sp.
  cbv zeta in B, Vb, Va, PD, PW, Sp.
  assert (Hx : x <> []) by (destruct x; cbn in Hn; [lia|easy]). assert (Hy : y <> []) by (destruct y; cbn in *; [lia|easy]).
  unfold wlss. rewrite Hs, Hlen, Nat.eqb_refl. cbn [negb]. rewrite <- Hlen, (proj2 (Nat.ltb_ge _ _) Hn).
  rewrite F. clear F. cbn [w_b w_a w_bvar w_avar w_evar].
  match goal with |- context [linreg ?s ?i ?se ?ie x y None (Some es)] => destruct (linreg_ok s i se ie x y None (Some es) Hx Hy) as (r & E & A1 & A2 & A3 & A4 & A5 & A6 & A7 & A8 & A9); [apply map_length|cbn; lia|rewrite E; clear E] end.
  assert (Psp : 0 < wspread t w) by (rewrite Sp; now apply Rdiv_lt_0_compat).
  eexists r, _, _, _. split; [reflexivity|]. split; [exact A2|]. split; [exact A1|]. split; [exact B|].
  split; [|split; [|split; [|split]]].
  - rewrite A3. etransitivity; [|apply (f_equal (fun v => Num (sqrt v)) Vb)]. apply nsqrt_pos. now apply Rdiv_lt_0_compat.
  - rewrite A4. etransitivity; [|apply (f_equal (fun v => Num (sqrt v)) Va)]. apply nsqrt_ok. eapply Rle_trans; [|right; symmetry; exact Va].
    apply Rplus_le_le_0_compat; [left; now apply Rinv_0_lt_compat|]. apply Rmult_le_pos; [apply pow2_ge_0|left; now apply Rinv_0_lt_compat].
  - intros H. now apply nsqrt_ok.
  - intros H. now apply nsqrt_neg.
  - cbn [err_list] in *. tauto.
Qed.
Lemma same_ok n e : spread n (Same e) = Ok (map (fun _ => e) (seq 0 n)) /\ length (map (fun _ => e) (seq 0 n)) = n.
Proof. split; [easy|]. now rewrite map_length, seq_length. Qed.
Lemma left_same pts e n : length pts = n -> pts <> [] -> left_over pts (map (fun _ => e) (seq 0 n)) + e ^ 2 = vertical pts (through pts (slope1 pts)) (slope1 pts) / size pts.
Proof.
  intros H Hne. unfold left_over. rewrite Sum_map, Sum_const. unfold size at 1. rewrite seq_length, <- H. fold (size pts). unfold through. pose proof (size_pos pts Hne). field. lra.
Qed.
(** Errors that are all the same *)
Lemma same_l x y e : length x = length y -> (2 <= length x)%nat -> let pts := combine x y in Sxy pts <> 0 -> ~ collinear pts ->
  exists r scat s, wlss x y (Same e) = Ok (r, scat) /\ SixLin x y = Ok s /\ r_slope r = r_slope (s_yonx s) /\ r_inter r = r_inter (s_yonx s).
Proof.
  intros Hlen Hn pts Hsxy Hc. assert (Hne : pts <> []) by (apply pts_ne; [easy|lia]). pose proof (size_pos pts Hne) as N.
  set (es := map (fun _ => e) (seq 0 (length x))). assert (Lp : length pts = length x) by (unfold pts; rewrite combine_length; lia).
  pose proof (left_same pts e (length x) Lp Hne) as LS. fold es in LS. set (a := through pts (slope1 pts)) in *. set (b := slope1 pts) in *.
  assert (V : 0 < vertical pts a b).
  { assert (G : 0 <= vertical pts a b) by (apply Sum_nonneg; intros; apply pow2_ge_0). destruct (Rle_lt_or_eq_dec _ _ G) as [?|Z]; [easy|]. exfalso. apply Hc.
    exists b, (-1), (- a). split; [right; lra|]. intros p Hp. symmetry in Z. unfold vertical in Z. apply (Sum_zero _ _ (fun p _ => pow2_ge_0 _) Z) in Hp.
    destruct (Req_dec (snd p - (a + b * fst p)) 0) as [Q|Q]; [lra|]. apply pow2_gt_0 in Q. lra. }
  assert (K : 0 < vertical pts a b / size pts) by now apply Rdiv_lt_0_compat.
  assert (I : forall e', In e' es -> e' = e) by (intros e' H; unfold es in H; apply in_map_iff in H; destruct H as (? & <- & _); easy).
  destruct (same_ok (length x) e) as [Sp Le]. fold es in Sp, Le.
  destruct (wlss_l x y (Same e) es Sp Le Hlen Hn Hsxy) as (r & scat & a1 & b1 & E & E1 & E2 & B & _).
  { intros e' H. rewrite (I e' H). fold pts. rewrite LS. exact K. }
  destruct (six_ok x y Hlen Hn Hsxy) as (s & Es & (S1 & _) & _). destruct S1 as (S11 & S12 & _).
  exists r, scat, s. split; [exact E|]. split; [exact Es|]. rewrite S11, S12, E1, E2. fold pts. fold a b.
  fold pts in B. set (t := combine pts es) in B. assert (WV : forall a' b', weighted t (fun e => left_over pts es + e ^ 2) a' b' = vertical pts a' b' / (vertical pts a b / size pts)).
  { intros a' b'. unfold weighted. rewrite (Sum_ext _ (fun p => / (vertical pts a b / size pts) * (fun q => (snd q - (a' + b' * fst q)) ^ 2) (fst p))).
    - rewrite Sum_scal. unfold t. rewrite (Sum_left (fun q => (snd q - (a' + b' * fst q)) ^ 2) pts es) by lia. fold (vertical pts a' b'). unfold Rdiv. ring.
    - intros p Hp. assert (Ip : snd p = e) by (apply I; destruct p as [u v]; unfold t in Hp; now apply in_combine_r in Hp). rewrite Ip, LS. unfold Rdiv. ring. }
  assert (Q : a = a1 /\ b = b1).
  { destruct (Req_dec a a1) as [Qa|Qa]; destruct (Req_dec b b1) as [Qb|Qb]; try (split; assumption); exfalso; 
    (assert (O : a <> a1 \/ b <> b1) by tauto; assert (O' : a1 <> a \/ b1 <> b) by (destruct O; auto);
     pose proof (yonx_best pts Hne Hsxy a1 b1 O') as Y1; specialize (B a b O); rewrite !WV in B; fold b in Y1; fold a in Y1;
     apply Rmult_lt_reg_r in B; [|now apply Rinv_0_lt_compat]; lra). }
  destruct Q as [<- <-]. split; easy.
Qed.
(** Points on a line *)
Lemma collinear_l x y e : length x = length y -> (2 <= length x)%nat -> let pts := combine x y in Sxy pts <> 0 -> collinear pts ->
  exists r scat, wlss x y (Same e) = Ok (r, scat) /\ r_slope r = Bad /\ r_inter r = Bad /\ r_serr r = Bad /\ r_ierr r = Bad /\ (e <> 0 -> scat = Bad).
Proof.
  intros Hlen Hn pts Hsxy Hc. assert (Hne : pts <> []) by (apply pts_ne; [easy|lia]). pose proof (size_pos pts Hne) as N.
  set (es := map (fun _ => e) (seq 0 (length x))). assert (Lp : length pts = length x) by (unfold pts; rewrite combine_length; lia).
  pose proof (left_same pts e (length x) Lp Hne) as LS. fold es in LS. destruct (same_ok (length x) e) as [Sp Le]. fold es in Sp, Le.
  assert (V : vertical pts (through pts (slope1 pts)) (slope1 pts) = 0).
  { destruct (rho_bound pts Hne Hsxy) as [_ R]. apply R in Hc. rewrite vertical_eq by easy. pose proof (Sxx_pos pts Hsxy). pose proof (Syy_pos pts Hsxy).
    assert (P : 0 < Sxx pts * Syy pts) by now apply Rmult_lt_0_compat. pose proof (sqrt_lt_R0 _ P).
    assert (Q : Sxy pts ^ 2 = Sxx pts * Syy pts). { rewrite <- (pow2_sqrt (Sxx pts * Syy pts)) by lra. apply (f_equal (fun v => v ^ 2)) in Hc. rewrite pow2_abs in Hc. apply (Rmult_eq_reg_r (/ sqrt (Sxx pts * Syy pts) ^ 2)); [|apply Rinv_neq_0_compat, pow_nonzero; lra]. field_simplify; [|lra|lra]. field_simplify in Hc; [|lra]. lra. }
    unfold through, slope1. replace (Syy pts) with (Sxy pts ^ 2 / Sxx pts) by (rewrite Q; field; lra). field. lra. }
  rewrite V in LS. replace (0 / size pts) with 0 in LS by (field; lra).
  assert (I : forall e', In e' es -> e' = e) by (intros e' H; unfold es in H; apply in_map_iff in H; destruct H as (? & <- & _); easy).
  assert (Hx : x <> []) by (destruct x; cbn in Hn; [lia|easy]). assert (Hy : y <> []) by (destruct y; cbn in *; [lia|easy]).
  unfold wlss. rewrite Sp, Hlen, Nat.eqb_refl. cbn [negb]. rewrite <- Hlen, (proj2 (Nat.ltb_ge _ _) Hn).
  rewrite (wlss_f_start x y es Hlen Le Hn Hsxy). fold pts. set (t := combine pts es).
  assert (exists p0, In p0 t) as (p0 & Hp0). { unfold t. destruct pts as [|q u]; [easy|]. destruct es as [|f es'] ; [cbn in *; lia|]. exists (q, f). now left. }
  assert (Se : snd p0 = e) by (apply I; destruct p0 as [u v]; unfold t in Hp0; now apply in_combine_r in Hp0).
  assert (Z : (Num (left_over pts es) + (Num (snd p0))²)%num = Num 0) by (rewrite Se; nums; now rewrite LS).
  assert (BB : forall f : num * num * R -> num, nsum (fun p => (f p / (Num (left_over pts es) + (Num (snd p))²))%num) (map (fun p => (Num (fst (fst p)), Num (snd (fst p)), snd p)) t) = Bad).
  { intros f. rewrite nsum_map. apply in_bad_nsum. exists p0. split; [easy|]. cbn [fst snd]. rewrite Z. destruct (f _); [|easy]. cbn. now rewrite (proj2 (Reqb_spec 0 0) eq_refl). }
  assert (B1 : nsum (fun p : num * num * R => let '(x, y, e) := p in (Num 1 / (Num (left_over pts es) + (Num e)²))%num) (map (fun p => (Num (fst (fst p)), Num (snd (fst p)), snd p)) t) = Bad).
  { rewrite <- (BB (fun _ => Num 1)). rewrite !nsum_map. easy. }
  cbv beta zeta. rewrite B1. cbn [nmul lift2 nsub w_b w_a w_bvar w_avar w_evar].
  match goal with |- context [linreg ?s ?i ?se ?ie x y None (Some es)] => destruct (linreg_ok s i se ie x y None (Some es) Hx Hy) as (r & E & A1 & A2 & A3 & A4 & _); [apply map_length|cbn; lia|rewrite E; clear E] end.
  assert (DB : forall u, (u / Bad)%num = Bad) by (intros []; easy).
  eexists r, _. split; [reflexivity|]. rewrite A1, A2, A3, A4. unfold nsub, nmul. cbn [lift2]. rewrite !DB. repeat split; [easy..|]. intros Hz. apply nsqrt_neg. pose proof (pow2_gt_0 e Hz). lra.
Qed.
