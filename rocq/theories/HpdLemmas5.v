(** Proofs about credible levels. *)

From Coq Require Import ZArith String List Bool Arith Lia Reals Lra Psatz.
From Verif Require Import Exn PieModel Instances MinModel MinSpec MinLemmas HpdModel HpdSpec RefLemmas HpdLemmas HpdLemmas2 HpdLemmas3 HpdLemmas4.
Import ListNotations.
Open Scope R_scope.

Lemma level1_lt : forall h x y, x < y -> level1 h x < level1 h y.
Proof. intros h x y H. unfold level1. apply exp_increasing. lra. Qed.
Lemma level1_le : forall h x y, x <= y -> level1 h x <= level1 h y.
Proof. intros h x y [H| ->]; [left; apply level1_lt; exact H|right; reflexivity]. Qed.
Lemma level2_le : forall h x y, x <= y -> level2 h x <= level2 h y.
Proof. intros h x y [H| ->]; [left; apply exp_increasing; lra|right; reflexivity]. Qed.

(** The fraction above any positive level at or below everything is 1. *)
Lemma frac_one : forall l c, List.Forall (fun x => 0 < x) l -> (2 <= length l)%nat -> no_flat_floor l l ->
  (forall x, In x l -> c <= x) -> region l c / area l = 1.
Proof.
  intros l c HP HL HF H. rewrite (region_floor l l c); [|apply Forall_forall; exact H|exact H|exact HF].
  pose proof (area_pos l HP HL). field. lra.
Qed.
Lemma frac2_one : forall rows c, table rows -> level_floor2 rows ->
  (forall x, In x (List.concat rows) -> c <= x) -> region2 rows c / area2 rows = 1.
Proof.
  intros rows c HT HF H. pose proof (area2_pos rows HT). replace (region2 rows c) with (area2 rows); [field; lra|].
  unfold region2, area2. f_equal. apply map_ext_in. intros r Hr. symmetry.
  apply (region_floor (List.concat rows)); [|exact H|apply HF; exact Hr].
  apply Forall_forall. intros x Hx. apply H. apply in_concat. exists r. split; assumption.
Qed.
Lemma frac_less : forall l c, List.Forall (fun x => 0 < x) l -> (2 <= length l)%nat -> 
  (exists x, In x l /\ x < c) -> region l c / area l < 1.
Proof.
  intros l c HP HL [x [Hx Hc]]. pose proof (area_pos l HP HL) as HA.
  assert (0 < x). { rewrite Forall_forall in HP. apply HP. exact Hx. }
  assert (region l c < area l). { apply region_some; try assumption; [apply pos_nonneg; exact HP|exists x; split; assumption|lra]. }
  apply Rmult_lt_reg_r with (area l); [exact HA|]. unfold Rdiv. rewrite Rmult_assoc, Rinv_l by lra. lra.
Qed.
Lemma area_mono_lt : forall (f g : list R -> R) rows r, (2 <= length rows)%nat -> In r rows -> f r < g r ->
  (forall r', In r' rows -> f r' <= g r') -> area (map f rows) < area (map g rows).
Proof.
  intros f g rows r HL Hr Hlt Hle. induction rows as [|a rows IH]; [cbn in HL; lia|].
  destruct rows as [|b rows']; [cbn in HL; lia|]. cbn [map]. rewrite !area_cons.
  assert (Ha : f a <= g a) by (apply Hle; left; reflexivity).
  assert (Hb : f b <= g b) by (apply Hle; right; left; reflexivity).
  assert (M : area (map f (b :: rows')) <= area (map g (b :: rows'))).
  { apply area_mono. apply Forall2_maps. intros r' Hr'. apply Hle. right. exact Hr'. }
  cbn [map] in M.
  destruct Hr as [->|[->|Hr]]; [lra|lra|].
  destruct rows' as [|c rows'']; [destruct Hr|].
  assert (area (map f (b :: c :: rows'')) < area (map g (b :: c :: rows''))).
  { apply IH; [cbn [length]; lia|right; exact Hr|]. intros r' Hr'. apply Hle. right. exact Hr'. }
  cbn [map] in *. lra.
Qed.
Lemma frac2_less : forall rows c, table rows -> (exists x, In x (List.concat rows) /\ x < c) -> region2 rows c / area2 rows < 1.
Proof.
  intros rows c HT [x [Hx Hc]]. pose proof (area2_pos rows HT) as HA.
  apply in_concat in Hx. destruct Hx as [r [Hr Hx]]. destruct (t_rows _ HT r Hr) as [HL HP].
  assert (0 < x). { rewrite Forall_forall in HP. apply HP. exact Hx. }
  assert (region2 rows c < area2 rows).
  { unfold region2, area2. apply (area_mono_lt (fun r => region r c) area rows r); [apply (t_two _ HT)|exact Hr| |].
    - apply region_some; try assumption; [apply pos_nonneg; exact HP|exists x; split; assumption|lra].
    - intros r' Hr'. apply region_range. apply pos_nonneg. apply (t_rows _ HT r' Hr'). }
  apply Rmult_lt_reg_r with (area2 rows); [exact HA|]. unfold Rdiv. rewrite Rmult_assoc, Rinv_l by lra. lra.
Qed.

Section Calls.
Variable cdf ppf : R -> R -> R.
Variable brentq : (R -> R) -> R -> R -> R -> res R.
Notation crit1 := (critlevel1 cdf ppf brentq).
Notation crit2 := (critlevel2 cdf ppf brentq).


Lemma diff1_is : forall h p lr, grid1 h -> no_flat_floor (density1 h) (density1 h) -> diff1 h p lr = frac_of1 h lr - p.
Proof. intros h p lr H HF. unfold diff1. rewrite frac1 by assumption. reflexivity. Qed.
Lemma diff2_is : forall h p lr, grid2 h -> level_floor2 (density2 h) -> diff2 h p lr = frac_of2 h lr - p.
Proof. intros h p lr H HF. unfold diff2. rewrite frac2 by assumption. reflexivity. Qed.

Lemma density1_two : forall h, grid1 h -> (2 <= length (density1 h))%nat.
Proof. intros h H. rewrite density1_length by exact H. apply (ax_two _ _ _ _ (g1_axis h H)). Qed.

Lemma diff1_anti : forall h p, grid1 h -> no_flat_floor (density1 h) (density1 h) ->
  forall x y, x <= y -> diff1 h p y <= diff1 h p x.
Proof.
  intros h p H HF x y Hxy. rewrite !diff1_is by assumption.
  destruct (frac_facts (density1 h) (density1_pos h H) (density1_two h H)) as [_ [M _]].
  specialize (M _ _ (level1_le h x y Hxy)). unfold frac_of1. lra.
Qed.
Lemma diff2_anti : forall h p, grid2 h -> level_floor2 (density2 h) ->
  forall x y, x <= y -> diff2 h p y <= diff2 h p x.
Proof.
  intros h p H HF x y Hxy. rewrite !diff2_is by assumption.
  destruct (frac2_facts (density2 h) (density2_table h H)) as [_ [M _]].
  specialize (M _ _ (level2_le h x y Hxy)). unfold frac_of2. lra.
Qed.

Lemma nonzero1 : forall h, grid1 h -> no_flat_floor (density1 h) (density1 h) -> Reqb (h_snorm h) 0 = false.
Proof. intros h H HF. apply Reqb_false. destruct (snorm_is h H HF). lra. Qed.
Lemma nonzero2 : forall h, grid2 h -> level_floor2 (density2 h) -> Reqb (d_norm h) 0 = false.
Proof. intros h H HF. apply Reqb_false. destruct (norm2_is h H HF). lra. Qed.

(** ** What is returned *)
Lemma crossings_lengths : forall h, grid1 h -> length (h_xvals h) = length (map (fun v => v - h_max h) (h_logpdf h)).
Proof. intros h H. rewrite map_length. apply (ax_len _ _ _ _ (g1_axis h H)). Qed.

Lemma level1_ok : forall h p snsig tol h' r b, root_search brentq -> object1 cdf ppf brentq h ->
  no_flat_floor (density1 h) (density1 h) -> 0 < tol -> crit1 p snsig tol h = (h', Ok (r, b)) ->
  exists prob, asked cdf p snsig prob /\
  (let e := tol + rtol * Rabs r in frac_of1 h (r + e) <= prob <= frac_of1 h (r - e)) /\
  h_probs h' = h_probs h ++ [prob] /\ h_deltas h' = h_deltas h ++ [r] /\
  h_levels h' = h_levels h ++ [h_max h + r] /\ h_bounds h' = h_bounds h ++ [b] /\
  (forall cs, lists_crossings (h_xvals h) (map (fun v => v - h_max h) (h_logpdf h)) r cs -> b = firstn 10 cs).
Proof.
  intros h p snsig tol h' r b HB HO HF Ht E. pose proof (object1_grid _ _ _ _ HO) as H.
  rewrite crit1_unfold in E. destruct (guess cdf ppf p snsig) as [[lr q]|e] eqn:EG; [|discriminate].
  rewrite (nonzero1 h H HF) in E.
  destruct (search brentq (diff1 h q) false lr tol) as [r'|e] eqn:ES; [|discriminate]. cbv zeta in E.
  destruct (x_ok (bounds_out h r')) eqn:EO; [|discriminate]. injection E as <- <- <-.
  exists q. split; [apply (guess_ok cdf ppf _ _ _ _ EG)|]. split; [|split; [reflexivity|split; [reflexivity|split; [reflexivity|split; [reflexivity|]]]]].
  - pose proof (search_ok brentq _ _ _ _ HB Ht (diff1_anti h q H HF) ES) as K. cbv zeta in K |- *.
    rewrite !diff1_is in K by assumption. lra.
  - intros cs Hcs. unfold bounds_out.
    destruct (xvalues_spec _ _ _ 10 _ (ax_sorted _ _ _ _ (g1_axis h H)) (crossings_lengths h H) Hcs) as [X _]. exact X.
Qed.

Lemma level2_ok : forall h p snsig tol h' r, root_search brentq -> object2 cdf ppf brentq h ->
  level_floor2 (density2 h) -> 0 < tol -> crit2 p snsig tol h = (h', Ok r) ->
  exists prob, asked cdf p snsig prob /\
  (let e := tol + rtol * Rabs r in frac_of2 h (r + e) <= prob <= frac_of2 h (r - e)) /\
  d_probs h' = d_probs h ++ [prob] /\ d_deltas h' = d_deltas h ++ [r] /\ d_levels h' = d_levels h ++ [d_max h + r].
Proof.
  intros h p snsig tol h' r HB HO HF Ht E. pose proof (object2_grid _ _ _ _ HO) as H.
  rewrite crit2_unfold in E. destruct (guess cdf ppf p snsig) as [[lr q]|e] eqn:EG; [|discriminate].
  rewrite (nonzero2 h H HF) in E.
  destruct (search brentq (diff2 h q) false lr tol) as [r'|e] eqn:ES; [|discriminate]. injection E as <- <-.
  exists q. split; [apply (guess_ok cdf ppf _ _ _ _ EG)|]. split; [|split; [reflexivity|split; reflexivity]].
  pose proof (search_ok brentq _ _ _ _ HB Ht (diff2_anti h q H HF) ES) as K. cbv zeta in K |- *.
  rewrite !diff2_is in K by assumption. lra.
Qed.

(** ** When something is returned *)

Lemma level1_found : forall h p snsig tol prob lr, root_search brentq -> converges brentq -> object1 cdf ppf brentq h ->
  no_flat_floor (density1 h) (density1 h) -> 0 < tol -> asked cdf p snsig prob -> starts_at ppf p snsig lr -> 0 < prob < 1 ->
  (exists x, In x (density1 h) /\ x < level1 h lr) ->
  (forall x, In x (density1 h) -> level1 h (lr - 10 ^ 15) <= x <= level1 h (lr + 10 ^ 15)) ->
  (exists h' r b, crit1 p snsig tol h = (h', Ok (r, b))) \/
  (exists h', crit1 p snsig tol h = (h', Err RuntimeError) /\ crowded h).
Proof.
  intros h p snsig tol prob lr HB HC HO HF Ht HA HS Hp HX HR. pose proof (object1_grid _ _ _ _ HO) as H.
  rewrite crit1_unfold, (guess_of cdf ppf _ _ _ _ HA HS), (nonzero1 h H HF).
  pose proof (frac_facts (density1 h) (density1_pos h H) (density1_two h H)) as [_ [M [_ F0]]].
  destruct (bracket_found (diff1 h prob) lr prob Hp (diff1_anti h prob H HF)) as [a [b [EZ Ho]]].
  - intros x Hx. rewrite diff1_is by assumption. unfold frac_of1. rewrite frac_one; [reflexivity|apply density1_pos; exact H|apply density1_two; exact H|exact HF|].
    intros y Hy. apply Rle_trans with (level1 h (lr - 10 ^ 15)); [apply level1_le; exact Hx|apply HR; exact Hy].
  - intros x Hx. rewrite diff1_is by assumption. unfold frac_of1. rewrite F0; [ring|].
    intros y Hy. apply Rle_trans with (level1 h (lr + 10 ^ 15)); [apply HR; exact Hy|apply level1_le; exact Hx].
  - intros x Hx. rewrite diff1_is by assumption. unfold frac_of1.
    assert (region (density1 h) (level1 h x) / area (density1 h) < 1); [|lra].
    apply frac_less; [apply density1_pos; exact H|apply density1_two; exact H|].
    destruct HX as [y [Hy1 Hy2]]. exists y. split; [exact Hy1|]. pose proof (level1_le h lr x Hx). lra.
  - unfold search. rewrite EZ. cbn [bindr fst snd].
    destruct (HC _ a b tol Ht Ho) as [r Er]. rewrite Er. cbv zeta.
    destruct (x_ok (bounds_out h r)) eqn:EO; [left; eexists; eexists; eexists; reflexivity|right].
    eexists. split; [reflexivity|]. exists r, (found r (h_xvals h) (map (fun v => v - h_max h) (h_logpdf h))).
    pose proof (found_spec r _ _ (ax_sorted _ _ _ _ (g1_axis h H)) (crossings_lengths h H)) as FS.
    split; [exact FS|].
    destruct (xvalues_spec _ _ _ 10 _ (ax_sorted _ _ _ _ (g1_axis h H)) (crossings_lengths h H) FS) as [_ [_ [X _]]].
    destruct (le_lt_dec (length (found r (h_xvals h) (map (fun v => v - h_max h) (h_logpdf h)))) 10) as [L|L]; [|exact L].
    specialize (X L). unfold bounds_out in EO. rewrite EO in X. discriminate.
Qed.

Lemma level2_found : forall h p snsig tol prob lr, root_search brentq -> converges brentq -> object2 cdf ppf brentq h ->
  level_floor2 (density2 h) -> 0 < tol -> asked cdf p snsig prob -> starts_at ppf p snsig lr -> 0 < prob < 1 ->
  (exists x, In x (List.concat (density2 h)) /\ x < level2 h lr) ->
  (forall x, In x (List.concat (density2 h)) -> level2 h (lr - 10 ^ 15) <= x <= level2 h (lr + 10 ^ 15)) ->
  exists h' r, crit2 p snsig tol h = (h', Ok r).
Proof.
  intros h p snsig tol prob lr HB HC HO HF Ht HA HS Hp HX HR. pose proof (object2_grid _ _ _ _ HO) as H.
  rewrite crit2_unfold, (guess_of cdf ppf _ _ _ _ HA HS), (nonzero2 h H HF).
  pose proof (density2_table h H) as HT.
  pose proof (frac2_facts (density2 h) HT) as [_ [M [_ F0]]].
  destruct (bracket_found (diff2 h prob) lr prob Hp (diff2_anti h prob H HF)) as [a [b [EZ Ho]]].
  - intros x Hx. rewrite diff2_is by assumption. unfold frac_of2. rewrite frac2_one; [reflexivity|exact HT|exact HF|].
    intros y Hy. apply Rle_trans with (level2 h (lr - 10 ^ 15)); [apply level2_le; exact Hx|apply HR; exact Hy].
  - intros x Hx. rewrite diff2_is by assumption. unfold frac_of2. rewrite F0; [ring|].
    intros y Hy. apply Rle_trans with (level2 h (lr + 10 ^ 15)); [apply HR; exact Hy|apply level2_le; exact Hx].
  - intros x Hx. rewrite diff2_is by assumption. unfold frac_of2.
    assert (region2 (density2 h) (level2 h x) / area2 (density2 h) < 1); [|lra].
    apply frac2_less; [exact HT|].
    destruct HX as [y [Hy1 Hy2]]. exists y. split; [exact Hy1|]. pose proof (level2_le h lr x Hx). lra.
  - unfold search. rewrite EZ. cbn [bindr fst snd].
    destruct (HC _ a b tol Ht Ho) as [r Er]. rewrite Er. eexists; eexists; reflexivity.
Qed.

Lemma level1_fails : forall h p snsig tol prob lr, object1 cdf ppf brentq h ->
  no_flat_floor (density1 h) (density1 h) -> asked cdf p snsig prob -> starts_at ppf p snsig lr -> 0 < prob < 1 ->
  (forall x, In x (density1 h) -> level1 h lr <= x) -> snd (crit1 p snsig tol h) = Err RuntimeError.
Proof.
  intros h p snsig tol prob lr HO HF HA HS Hp HX. pose proof (object1_grid _ _ _ _ HO) as H.
  rewrite crit1_unfold, (guess_of cdf ppf _ _ _ _ HA HS), (nonzero1 h H HF). unfold search.
  rewrite (bracket_fails (diff1 h prob) lr prob Hp); [reflexivity|].
  intros x Hx. rewrite diff1_is by assumption. unfold frac_of1. rewrite frac_one; [reflexivity|apply density1_pos; exact H|apply density1_two; exact H|exact HF|].
  intros y Hy. apply Rle_trans with (level1 h lr); [apply level1_le; exact Hx|apply HX; exact Hy].
Qed.
Lemma level2_fails : forall h p snsig tol prob lr, object2 cdf ppf brentq h ->
  level_floor2 (density2 h) -> asked cdf p snsig prob -> starts_at ppf p snsig lr -> 0 < prob < 1 ->
  (forall x, In x (List.concat (density2 h)) -> level2 h lr <= x) -> snd (crit2 p snsig tol h) = Err RuntimeError.
Proof.
  intros h p snsig tol prob lr HO HF HA HS Hp HX. pose proof (object2_grid _ _ _ _ HO) as H.
  rewrite crit2_unfold, (guess_of cdf ppf _ _ _ _ HA HS), (nonzero2 h H HF). unfold search.
  rewrite (bracket_fails (diff2 h prob) lr prob Hp); [reflexivity|].
  intros x Hx. rewrite diff2_is by assumption. unfold frac_of2. rewrite frac2_one; [reflexivity|apply density2_table; exact H|exact HF|].
  intros y Hy. apply Rle_trans with (level2 h lr); [apply level2_le; exact Hx|apply HX; exact Hy].
Qed.
End Calls.

(** ** Bounds on linear grids *)
Lemma dens_lin_nth : forall logpdf xs i, length logpdf = length xs -> (i < length logpdf)%nat ->
  nth i (dens true logpdf xs) 0 = exp (nth i logpdf 0).
Proof.
  intros logpdf. induction logpdf as [|v l IH]; intros xs i HL Hi; [cbn in Hi; lia|].
  destruct xs as [|x xs]; [discriminate|]. cbn [dens]. destruct i as [|i]; [reflexivity|]. cbn [nth]. apply IH; cbn in *; lia.
Qed.
Lemma shifted_nth : forall m l i, (i < length l)%nat -> nth i (map (fun v => v - m) l) 0 = nth i l 0 - m.
Proof.
  intros m l i Hi. rewrite (nth_indep _ 0 (0 - m)) by (rewrite map_length; exact Hi).
  rewrite (map_nth (fun v => v - m)). reflexivity.
Qed.
Lemma exp_lt_iff : forall x y, exp x < exp y <-> x < y.
Proof. intros x y. split; [apply exp_lt_inv|apply exp_increasing]. Qed.

Lemma same_cells : forall h r i, grid1 h -> h_lin h = true ->
  (straddles (map (fun v => v - h_max h) (h_logpdf h)) r i <-> straddles (density1 h) (level1 h r) i).
Proof.
  intros h r i H HL. unfold straddles. rewrite map_length, density1_length by exact H.
  pose proof (ax_len _ _ _ _ (g1_axis h H)) as L.
  split; intros [Hi K]; (split; [exact Hi|]); revert K; rewrite !shifted_nth by lia; unfold density1, level1;
    rewrite HL, !dens_lin_nth by lia; rewrite !exp_lt_iff; lra.
Qed.

Lemma bounds_cells : forall h r cs, grid1 h -> h_lin h = true ->
  lists_crossings (h_xvals h) (map (fun v => v - h_max h) (h_logpdf h)) r cs ->
  (forall v, In v cs -> exists i, straddles (density1 h) (level1 h r) i /\ nth i (h_xvals h) 0 < v < nth (S i) (h_xvals h) 0) /\
  (forall i, straddles (density1 h) (level1 h r) i -> exists v, In v cs /\ nth i (h_xvals h) 0 < v < nth (S i) (h_xvals h) 0).
Proof.
  intros h r cs H HL [_ Hcs]. split.
  - intros v Hv. apply Hcs in Hv. destruct Hv as [i [Hs [Hb _]]]. exists i. split; [|exact Hb]. apply same_cells; assumption.
  - intros i Hi. apply same_cells in Hi; [|assumption|assumption].
    set (ys := map (fun v => v - h_max h) (h_logpdf h)) in *.
    set (x0 := nth i (h_xvals h) 0). set (x1 := nth (S i) (h_xvals h) 0). set (y0 := nth i ys 0). set (y1 := nth (S i) ys 0).
    assert (Hx : x0 < x1).
    { apply (ax_sorted _ _ _ _ (g1_axis h H)). rewrite (ax_len _ _ _ _ (g1_axis h H)). destruct Hi as [Hi _]. unfold ys in Hi. rewrite map_length in Hi. exact Hi. }
    destruct (crosses_0 x0 x1 [] y0 y1 [] r (x0 + (x1 - x0) * (r - y0) / (y1 - y0)) Hx) as [_ K].
    destruct K as [_ [K1 K2]]; [split; [apply Hi|reflexivity]|]. cbn [nth] in K1, K2.
    eexists. split; [apply Hcs; exists i; split; [exact Hi|split; [exact K1|exact K2]]|exact K1].
Qed.
