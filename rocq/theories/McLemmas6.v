(** Lemmas on Sampford sampling: tables, the largest sample size, the order. *)

From Coq Require Import ZArith List Bool Arith Reals Lia Lra Sorting.Sorted Sorting.Permutation.
From Verif Require Import Exn Instances CountSpec McModel McSpec McLemmas McLemmas2 McLemmas3 McLemmas4 McLemmas5.
Import ListNotations.
Open Scope R_scope.

(** ** Tables *)

Lemma finite_num : forall l, finite (map Num l) = Some l.
Proof. induction l as [|x l IH]; cbn [map finite]; [reflexivity|]. now rewrite IH. Qed.

Lemma positive_case : forall A n (a b : A), (1 <= n)%nat -> match n with O => a | S _ => b end = b.
Proof. intros A [|n] a b H; [lia|reflexivity]. Qed.

Section WithTables.
Variable argsort : list R -> list nat.
Hypothesis SO : sorts argsort.
Variable w : list R.
Hypothesis WO : weights_ok w.
Variable n : nat.
Hypothesis N1 : (1 <= n < length w)%nat.
Hypothesis NW : List.Forall (fun x => INR n * x < sumR w) w.
Hypothesis SZ : (Z.of_nat (length w) <= 2 ^ 30)%Z.
Let rs := lams argsort w n.
Let ord := order argsort w.

Lemma rs_ok : weights_ok rs.
Proof. split; [now apply lams_nonneg|now apply lams_sum_pos]. Qed.
Lemma rs_length : length rs = length w.
Proof. now apply lams_length. Qed.
Definition good_item (i : nat) : Prop := (i < length w)%nat /\ 0 < nth i w 0.
Lemma ratio_item : forall s fuel g g' r, init_sampler5tbl rs = Some s -> good g -> Dran fuel s g = (g', r) ->
  good g' /\ (r = Err OutOfFuel \/ exists j i, r = Ok j /\ nth_error ord j = Some i /\ good_item i).
Proof.
  intros s fuel g g' r E G H. assert (SZ' : (Z.of_nat (length rs) <= 2 ^ 30)%Z) by (rewrite rs_length; exact SZ).
  destruct (dran_positive rs s rs_ok SZ' E fuel g g' r G H) as [G' [_ [R|[j [R [J P]]]]]]; (split; [exact G'|]); [now left|right].
  rewrite rs_length in J. exists j, (nth j ord 0%nat). split; [exact R|]. split; [apply nth_error_nth'; unfold ord; now rewrite order_length|].
  split; [now apply order_item|]. unfold ord. rewrite <- in_order_nth by now rewrite order_length. apply (lams_pos argsort SO w WO n NW j J). exact P.
Qed.
Lemma more_table_run : forall s f fuel k sample g g' r, init_sampler5tbl rs = Some s -> f_indices f = ord -> good g ->
  NoDup sample -> List.Forall good_item sample -> more_table_picks f s fuel k sample g = (g', r) ->
  good g' /\ (r = Err OutOfFuel \/ r = Ok None \/ exists t, r = Ok (Some t) /\ length t = (length sample + k)%nat /\ NoDup t /\ List.Forall good_item t).
Proof.
  intros s f fuel k. induction k as [|k IH]; intros sample g g' r E FI G ND F H; cbn [more_table_picks] in H.
  - injection H as <- <-. split; [exact G|]. right. right. exists sample. split; [reflexivity|]. split; [lia|]. split; [exact ND|exact F].
  - unfold bind in H. destruct (Dran fuel s g) as [g1 r1] eqn:D. destruct (ratio_item s fuel g g1 r1 E G D) as [G1 [->|[j [i [-> [NE GI]]]]]].
    + injection H as <- <-. split; [exact G1|now left].
    + rewrite FI, NE in H. destruct (existsb (Nat.eqb i) sample) eqn:X.
      * injection H as <- <-. split; [exact G1|right; now left].
      * apply existsb_in in X. destruct (IH (sample ++ [i]) g1 g' r E FI G1) with (3 := H) as [G' R].
        -- apply NoDup_rev in ND. rewrite <- (rev_involutive (sample ++ [i])). apply NoDup_rev. rewrite rev_app_distr. cbn [rev app]. constructor; [now rewrite <- in_rev|exact ND].
        -- apply Forall_app. split; [exact F|]. constructor; [exact GI|constructor].
        -- split; [exact G'|]. destruct R as [R|[R|[t [R [L T]]]]]; [now left|right; now left|]. right. right. exists t. split; [exact R|]. rewrite app_length in L. cbn [length] in L. split; [lia|exact T].
Qed.
Lemma tables_run : forall ws s f fuel0 fuel ntry g g' r, init_sampler5tbl w = Some ws -> init_sampler5tbl rs = Some s -> f_indices f = ord -> f_nsamp f = n -> good g ->
  tables_loop f ws s fuel0 fuel ntry g = (g', r) ->
  good g' /\ (r = Err OutOfFuel \/ exists tries t, r = Ok (tries, t) /\ (ntry < tries <= ntry + fuel)%nat /\ length t = n /\ NoDup t /\ List.Forall good_item t).
Proof.
  intros ws s f fuel0 fuel. induction fuel as [|fuel IH]; intros ntry g g' r EW ES FI FN G H.
  - injection H as <- <-. split; [exact G|now left].
  - cbn [tables_loop] in H. unfold bind in H. destruct (Dran fuel0 ws g) as [g1 r1] eqn:D.
    destruct (dran_positive w ws WO SZ EW fuel0 g g1 r1 G D) as [G1 [_ [->|[i [-> GI]]]]]; [injection H as <- <-; split; [exact G1|now left]|].
    destruct (more_table_picks f s fuel0 (f_nsamp f - 1) [i] g1) as [g2 r2] eqn:M.
    destruct (more_table_run s f fuel0 (f_nsamp f - 1) [i] g1 g2 r2 ES FI G1) with (3 := M) as [G2 R2].
    { constructor; [intros []|constructor]. }
    { constructor; [exact GI|constructor]. }
    destruct R2 as [->|[->|[t [-> [L T]]]]].
    + injection H as <- <-. split; [exact G2|now left].
    + destruct (IH (S ntry) g2 g' r EW ES FI FN G2 H) as [G' [R|[tries [t [R [B T]]]]]]; (split; [exact G'|]); [now left|right]. exists tries, t. split; [exact R|]. split; [lia|exact T].
    + injection H as <- <-. split; [exact G2|right]. exists (S ntry), t. split; [reflexivity|]. split; [lia|]. cbn [length] in L. split; [lia|exact T].
Qed.
Lemma samplenr5_right : forall p idx, prepared argsort false w n p idx ->
  exists p', prepratiotables p = Ok p' /\ forall fuel g g' r, good g -> samplenr5 fuel p' g = (g', r) ->
  good g' /\ (r = Err OutOfFuel \/ exists tries t, r = Ok (tries, t) /\ (1 <= tries <= fuel)%nat /\ right_sample w n (map Z.of_nat t)).
Proof.
  intros p idx PR. destruct (prepared_is argsort SO w WO n N1 NW p idx PR) as [Rd [-> EW]]. unfold prepratiotables. rewrite Rd. cbn [f_ratios].
  fold rs. rewrite finite_num. assert (SZ' : (Z.of_nat (length rs) <= 2 ^ 30)%Z) by (rewrite rs_length; exact SZ).
  destruct (draws_in_proportion rs rs_ok SZ') as [s [_ [ES _]]]. rewrite ES. eexists. split; [reflexivity|].
  intros fuel g g' r G H. unfold samplenr5 in H. cbn [p_sf p_ratio f_nsamp p_tab] in H. rewrite positive_case in H by lia.
  match type of H with tables_loop ?f _ _ _ _ _ _ = _ => set (f0 := f) in H end.
  destruct (tables_run (p_tab p) s f0 fuel fuel 0 g g' r EW ES eq_refl eq_refl G H) as [G' [R|[tries [t [R [B [L [ND F]]]]]]]]; (split; [exact G'|]); [now left|right].
  exists tries, t. split; [exact R|]. split; [lia|]. now apply right_items.
Qed.
End WithTables.

(** ** The largest sample size *)

Lemma ratio_inf : forall n tot x, 0 < tot -> INR n * x = tot -> 0 < x -> ratio n tot x = PInf.
Proof.
  intros n tot x T E X. unfold ratio, xdiv. rewrite (proj2 (Reqb_false tot 0)) by lra.
  assert (Z : 1 - INR n * (x / tot) = 0) by (rewrite <- E; field; assert (INR n <> 0) by (intros K; rewrite K in E; lra); split; lra).
  rewrite (proj2 (Reqb_spec _ 0) Z). assert (P : 0 < x / tot) by (apply Rmult_lt_0_compat; [exact X|now apply Rinv_0_lt_compat]).
  rewrite (proj2 (Reqb_false _ 0)) by lra. now rewrite (proj2 (Rltb_false _ 0)) by lra.
Qed.
Lemma ratio_up : forall n tot x, 0 < tot -> INR n * x <= tot -> 0 <= x -> ratio n tot x = PInf \/ exists y, ratio n tot x = Num y.
Proof.
  intros n tot x T L X. destruct (Rle_lt_or_eq_dec _ _ L) as [S|E]; [right; eexists; now apply ratio_num|].
  left. apply ratio_inf; [exact T|exact E|]. destruct (Rle_lt_or_eq_dec 0 x X) as [P|P]; [exact P|]. rewrite <- P, Rmult_0_r in E. lra.
Qed.
Lemma xcumsum_inf : forall l, List.Forall (fun x => x = PInf \/ exists y, x = Num y) l -> xcumsum_from PInf l = repeat PInf (length l).
Proof.
  induction 1 as [|x l X F IH]; [reflexivity|]. cbn [xcumsum_from length repeat]. destruct X as [->|[y ->]]; cbn [xadd]; now rewrite IH.
Qed.
Lemma last_repeat : forall A (x d : A) k, last (repeat x (S k)) d = x.
Proof. intros A x d k. induction k as [|k IH]; [reflexivity|]. exact IH. Qed.

Section Limit.
Variable argsort : list R -> list nat.
Hypothesis SO : sorts argsort.
Variable w : list R.
Hypothesis WO : weights_ok w.
Variable n : nat.
Hypothesis N1 : (1 <= n < length w)%nat.
Hypothesis NW : List.Forall (fun x => INR n * x <= sumR w) w.
Hypothesis LM : Exists (fun x => INR n * x = sumR w) w.
Let sw := in_order argsort w.

Lemma limit_cum : xcumsum (map (ratio n (sumR w)) sw) = repeat PInf (length w).
Proof.
  assert (T : 0 < sumR w) by apply WO.
  assert (E0 : INR n * nth 0 sw 0 = sumR w).
  { apply Exists_exists in LM. destruct LM as [x [X E]]. pose proof (in_order_max argsort w x SO X) as M. fold sw in M.
    assert (I : In (nth 0 sw 0) w). { apply (Permutation_in _ (in_order_perm argsort w SO)). apply nth_In. rewrite in_order_length by exact SO. lia. }
    rewrite Forall_forall in NW. specialize (NW _ I). pose proof (pos_INR n). nra. }
  assert (F0 : List.Forall (fun x => INR n * x <= sumR w /\ 0 <= x) sw).
  { apply in_order_forall; [exact SO|]. destruct WO as [W0 _]. rewrite Forall_forall in *. intros x X. split; [now apply NW|now apply W0]. }
  pose proof (in_order_first argsort w SO WO) as P0. fold sw in P0.
  assert (L : length sw = length w) by now apply in_order_length.
  destruct sw as [|x l]; [cbn in L; lia|]. cbn [nth] in *. unfold xcumsum. cbn [map xcumsum_from]. rewrite (ratio_inf n (sumR w) x T E0 P0). cbn [xadd].
  rewrite xcumsum_inf.
  - rewrite map_length, <- L. reflexivity.
  - inversion F0 as [|? ? _ F1]; subst. rewrite Forall_forall in *. intros y Y. apply in_map_iff in Y. destruct Y as [z [<- Z]]. destruct (F1 z Z). now apply ratio_up.
Qed.
Lemma limit_prepared : forall p idx, prepared argsort false w n p idx ->
  exists ratios, p_sf p = Some (Sampford (length w) (cumsum sw) (order argsort w) n (Some (ratios, repeat PInf (length w)))).
Proof.
  intros p idx [p0 [p1 [sorted [tot [cum [E0 [E1 E2]]]]]]]. rewrite (prepwts_is argsort SO w n N1) in E1. injection E1 as <- <- <- <-.
  unfold prepratios in E2. rewrite in_order_length in E2 by exact SO. rewrite (proj2 (Nat.leb_gt _ _)) in E2 by lia.
  cbn [p_sf f_npopn] in E2. rewrite (proj2 (Nat.ltb_ge _ _)) in E2 by lia.
  cbn [f_ratios] in E2. rewrite (proj2 (Nat.eqb_neq n 0)) in E2 by lia. cbn [andb f_cumwts f_indices p_tab p_ratio] in E2. fold sw in E2. rewrite limit_cum in E2.
  rewrite (firstn_all2 (repeat PInf (length w))) in E2 by (rewrite repeat_length; lia). injection E2 as <- _. cbn [p_sf]. eexists. reflexivity.
Qed.
Lemma limit_pick : forall u, u <> 0 -> ratio_pick (repeat PInf (length w)) u = 0%nat.
Proof.
  intros u U. unfold ratio_pick. destruct (length w) as [|k]; [lia|]. cbv zeta. rewrite last_repeat. cbn [xscale]. rewrite (proj2 (Reqb_false u 0) U). reflexivity.
Qed.
Lemma limit_zero : ratio_pick (repeat PInf (length w)) 0 = length w.
Proof.
  unfold ratio_pick. destruct (length w) as [|k] eqn:L; [lia|]. cbv zeta. rewrite last_repeat. cbn [xscale]. rewrite (proj2 (Reqb_spec 0 0) eq_refl).
  assert (F : forall j i, find_le (xle NaN) (repeat PInf j) i = (i + j)%nat).
  { induction j as [|j IH]; intros i; cbn [repeat find_le xle]; [lia|]. rewrite IH. lia. }
  apply F.
Qed.
(** With n > 2 the later picks are all the first position. *)
Theorem limit_stuck : forall p idx C rand m fuel g c, prepared argsort false w n p idx -> (3 <= n)%nat -> good g ->
  (forall c, (0 < snd (rand c) < m)%Z) -> exists s', samplenr C rand m fuel p (g, c) = (s', Err OutOfFuel).
Proof.
  intros p idx C rand m fuel g c PR N3 G RB. destruct (limit_prepared p idx PR) as [ratios E].
  unfold samplenr, samplenr_from. rewrite E. cbn [f_ratios f_nsamp f_cumwts]. rewrite positive_case by lia.
  generalize 0%nat as ntry. revert g c G. induction fuel as [|fuel IH]; intros g c G ntry; [eexists; reflexivity|].
  cbn [sampford_loop]. unfold bind at 1. unfold on_rk at 1. cbn [fst snd]. destruct (double_is g G) as [g1 [a [b [u [_ [G1 [D _]]]]]]]. rewrite D.
  assert (U : forall c, exists c' k, crand C rand m (g1, c) = ((g1, c'), Ok (IZR k / IZR m)) /\ IZR k / IZR m <> 0).
  { intros c1. unfold crand. cbn [snd fst]. pose proof (RB c1) as B. destruct (rand c1) as [c2 k]. cbn [snd] in B. exists c2, k. split; [reflexivity|].
    assert (0 < IZR k) by (apply IZR_lt; lia). assert (0 < IZR m) by (apply IZR_lt; lia). assert (0 < IZR k / IZR m); [|lra]. apply Rmult_lt_0_compat; [lra|now apply Rinv_0_lt_compat]. }
  set (i := first_pick _ u). replace (n - 1)%nat with (S (S (n - 3))) by lia. cbn [more_picks].
  destruct (U c) as [c1 [k1 [E1 U1]]]. unfold bind. rewrite E1. cbv zeta. rewrite (limit_pick _ U1).
  destruct (existsb (Nat.eqb 0) [i]) eqn:X1.
  - apply (IH g1 c1 G1).
  - cbn [app]. destruct (U c1) as [c2 [k2 [E2 U2]]]. rewrite E2. rewrite (limit_pick _ U2).
    replace (existsb (Nat.eqb 0) [i; 0%nat]) with true by (cbn [existsb Nat.eqb]; now rewrite orb_true_r). apply (IH g1 c2 G1).
Qed.
(** A number 0 from rand() leads out of the population. *)
Theorem limit_outside : forall p idx C rand m fuel g c, prepared argsort false w n p idx -> n = 2%nat -> good g -> (0 < fuel)%nat ->
  snd (rand c) = 0%Z -> exists s' i, samplenr C rand m fuel p (g, c) = (s', Ok (1%nat, [i; length w])).
Proof.
  intros p idx C rand m fuel g c PR N2 G FP R0. destruct (limit_prepared p idx PR) as [ratios E].
  unfold samplenr, samplenr_from. rewrite E. cbn [f_ratios f_nsamp f_cumwts]. rewrite positive_case by lia. destruct fuel as [|fuel]; [lia|].
  cbn [sampford_loop]. unfold bind at 1. unfold on_rk at 1. cbn [fst snd]. destruct (double_is g G) as [g1 [a [b [u [_ [G1 [D [_ U]]]]]]]]. rewrite D.
  set (i := first_pick _ u). rewrite N2. cbn [Nat.sub more_picks]. unfold bind, crand. cbn [snd fst]. destruct (rand c) as [c1 k]. cbn [snd] in R0. subst k.
  cbv zeta. unfold Rdiv. rewrite Rmult_0_l, limit_zero.
  assert (I : (i < length w)%nat).
  { destruct (pick_positive sw u) as [I _].
    - apply in_order_forall; [exact SO|apply WO].
    - now apply in_order_first.
    - lra.
    - unfold sw in I. now rewrite in_order_length in I. }
  cbn [existsb]. destruct (Nat.eqb_spec (length w) i); [lia|]. cbn [orb more_picks app]. eexists. exists i. reflexivity.
Qed.
Theorem limit_two : forall p idx C rand m fuel g c s' r, prepared argsort false w n p idx -> n = 2%nat -> good g ->
  (forall k, (0 < snd (rand (c : C)) < m)%Z /\ fst (rand c) = c /\ k = k :> nat) -> samplenr C rand m fuel p (g, c) = (s', r) ->
  r = Err OutOfFuel \/ exists t i, r = Ok (t, [i; 0%nat]).
Proof.
  intros p idx C rand m fuel g c s' r PR N2 G RB. destruct (limit_prepared p idx PR) as [ratios E].
  unfold samplenr, samplenr_from. rewrite E. cbn [f_ratios f_nsamp f_cumwts]. rewrite positive_case by lia.
  generalize 0%nat at 1 as ntry. revert g G. induction fuel as [|fuel IH]; intros g G ntry H; [injection H as <- <-; now left|].
  cbn [sampford_loop] in H. unfold bind at 1 in H. unfold on_rk at 1 in H. cbn [fst snd] in H. destruct (double_is g G) as [g1 [a [b [u [_ [G1 [D _]]]]]]]. rewrite D in H.
  destruct (RB 0%nat) as [B [Fc _]]. rewrite N2 in H. cbn [Nat.sub more_picks] in H. unfold bind, crand in H. cbn [snd fst] in H.
  destruct (rand c) as [c1 k] eqn:RC. cbn [snd fst] in *. subst c1.
  assert (U : IZR k / IZR m <> 0).
  { assert (0 < IZR k) by (apply IZR_lt; lia). assert (0 < IZR m) by (apply IZR_lt; lia). assert (0 < IZR k / IZR m); [|lra]. apply Rmult_lt_0_compat; [lra|now apply Rinv_0_lt_compat]. }
  cbv zeta in H. rewrite (limit_pick _ U) in H. set (i := first_pick _ u) in *. destruct (existsb (Nat.eqb 0) [i]) eqn:X.
  - unfold ret in H. rewrite <- N2 in H. exact (IH g1 G1 _ H).
  - injection H as <- <-. right. eexists. exists i. reflexivity.
Qed.
Lemma limit_prepared_ok : exists p idx, prepared argsort false w n p idx.
Proof.
  assert (E : exists s, init_sampler5tbl w = Some s).
  { unfold init_sampler5tbl. rewrite rsum_is, (proj2 (Rleb_false (sumR w) 0)) by (destruct WO; lra). eexists. reflexivity. }
  destruct E as [s E]. unfold prepared. eexists. eexists. exists (Pps s None None). eexists. eexists. eexists. eexists.
  split; [unfold new_pps; rewrite E; reflexivity|]. split; [apply (prepwts_is argsort SO w n N1)|]. cbn [p_tab p_ratio].
  unfold prepratios. rewrite in_order_length by exact SO. rewrite (proj2 (Nat.leb_gt _ _)) by lia.
  cbn [p_sf f_npopn]. rewrite (proj2 (Nat.ltb_ge _ _)) by lia.
  cbn [f_ratios]. rewrite (proj2 (Nat.eqb_neq n 0)) by lia. cbn [andb]. reflexivity.
Qed.
End Limit.

(** ** The order *)

Theorem prepwts_order : forall argsort w p0, sorts argsort -> w <> [] ->
  exists p1 order sorted, prepwts argsort false p0 w = Ok (p1, (map Z.of_nat order, sorted, sumR w)) /\
    Permutation order (seq 0 (length w)) /\ sorted = map (fun i => nth i w 0) order /\
    (forall i j, (i < j < length w)%nat -> nth j sorted 0 <= nth i sorted 0).
Proof.
  intros argsort w p0 SO W.
  assert (E : prepwts argsort false p0 w = Ok (Pps (p_tab p0) (Some (Sampford (length w) (cumsum (in_order argsort w)) (order argsort w) 0 None)) (p_ratio p0), (map Z.of_nat (order argsort w), in_order argsort w, sumR w))).
  { destruct (Nat.lt_ge_cases 1 (length w)) as [L|L]; [apply (prepwts_is argsort SO w 1); lia|].
    destruct w as [|x [|y l]]; [contradiction| |cbn in L; lia]. destruct (SO [x]) as [P _]. cbn [length seq] in P. apply Permutation_length_1_inv in P || (symmetry in P; apply Permutation_length_1_inv in P).
    unfold prepwts, in_order, order, int_view, intp_of. cbn [length]. unfold reverse_part. rewrite P. unfold cumsum. cbn [rev app firstn skipn map nth cumsum_from last]. unfold sumR. cbn [fold_right]. replace (x + 0) with (0 + x) by ring. reflexivity. }
  eexists. exists (order argsort w), (in_order argsort w). split; [exact E|]. split; [now apply order_perm|]. split; [reflexivity|]. intros i j J. now apply in_order_down.
Qed.
