(** Results at the first application of the rule; bad arguments *)

From Coq Require Import List Bool Arith ZArith Reals Permutation Lra Lia.
From Verif Require Import Exn Instances McModel McLemmas4 BaModel BaLemmas ObsModel ObsLemmas ObsLemmas2 AdModel AdSpec AdLemmas AdLemmas2 AdLemmas3 AdLemmas4.
Import ListNotations.
Open Scope R_scope.

Lemma refine_stop : forall f symrl fuel n lenwrk minpts maxpts eps st cw t, length (w st) = lenwrk -> (2 <= lenwrk)%nat -> cell (w st) (lenwrk - 1) = Some (Some t) -> 0 <= t ->
  finest st <> 0 -> Rmin 1 (t / Rabs (finest st)) < eps -> (minpts <= funcls st)%Z ->
  exists st', refine f symrl (S fuel) n lenwrk minpts maxpts eps st cw = Ok (Output (funcls st) (Rmin 1 (t / Rabs (finest st))) (finest st) 0 st').
Proof.
  intros f symrl fuel n lenwrk minpts maxpts eps st cw t L L2 C T N E M. cbn [refine]. unfold check_end.
  assert (LW : (1 <= lenwrk)%nat) by lia. rewrite (rs1_cell' _ _ _ LW C).
  assert (X : exists w', (if Rleb t 0 then wr1 (w st) lenwrk (Some 0) else Ok (w st)) = Ok w' /\ length w' = lenwrk /\ cell w' (lenwrk - 1) = Some (Some t)).
  { destruct (Rleb t 0) eqn:Q; [|exists (w st); auto]. apply Rleb_spec in Q. assert (Z0 : t = 0) by lra.
    destruct (wr1_cell' (w st) lenwrk (Some 0)) as (w' & -> & L' & C'); [lia|]. exists w'. split; [reflexivity|]. split; [congruence|]. now rewrite C', Nat.eqb_refl, Z0. }
  destruct X as (w' & -> & L' & C'). rewrite (rs1_cell' _ _ _ LW C').
  rewrite (proj2 (Reqb_false (Rabs (finest st)) 0)) by now apply Rabs_no_R0.
  assert (Y : (if Rltb 1 (t / Rabs (finest st)) then 1 else t / Rabs (finest st)) = Rmin 1 (t / Rabs (finest st))).
  { unfold Rmin. destruct (Rltb 1 (t / Rabs (finest st))) eqn:Q; [apply Rltb_spec in Q|apply Rltb_false in Q]; destruct (Rle_dec 1 (t / Rabs (finest st))); lra. }
  rewrite Y. rewrite (proj2 (Rltb_spec _ eps) E). replace (minpts <=? funcls st)%Z with true by (symmetry; now apply Z.leb_le). cbn [andb Nat.ltb Nat.leb w funcls finest sbrgns].
  destruct (wr1_cell' w' (lenwrk - 1) (Some (INR (sbrgns st)))) as (w2 & -> & _); [lia|]. eexists. reflexivity.
Qed.

(** The first application suffices *)
Lemma adapt_at_once : forall f rule lower upper relacc maxfac wrkfac b, (2 <= length lower <= 20)%nat -> length upper = length lower ->
  bsrl f rule (length lower) (centre_of lower upper) (half_of lower upper) (rulcls (length lower)) 0 0 = Ok b ->
  0 <= b_errest b -> b_basest b <> 0 -> Rmin 1 (b_errest b / Rabs (b_basest b)) < relacc -> (rulcls (length lower) <= b_funcls b)%Z ->
  adapt f rule lower upper relacc maxfac wrkfac = Ok (Some (b_basest b, Rmin 1 (b_errest b / Rabs (b_basest b)), b_funcls b)).
Proof.
  intros f rule lower upper relacc maxfac wrkfac b Hn Hl Eb P N E M. unfold adapt, adapt_sizes. cbv zeta.
  rewrite Hl, Nat.eqb_refl. cbn [negb]. fold (rulcls (length lower)).
  assert (RP := rulcls_pos (length lower)). destruct (lenwrk_is (length lower)) as [W1 W2]; [lia|].
  set (l := Z.to_nat _) in *. clearbody l. set (n := length lower) in *. destruct (box_len lower upper Hl) as [Lc Lh]. fold n in Lc, Lh.
  unfold fortran. fold n.
  replace (n <? 2)%nat with false by (symmetry; apply Nat.ltb_ge; lia). replace (20 <? n)%nat with false by (symmetry; apply Nat.ltb_ge; lia). cbn [orb].
  replace (100 * rulcls n <? rulcls n)%Z with false by (symmetry; apply Z.ltb_ge; lia). replace (rulcls n <? 0)%Z with false by (symmetry; apply Z.ltb_ge; lia).
  rewrite whole_is. fold (rulcls n). replace (Z.min (rulcls n) (100 * rulcls n)) with (rulcls n) by lia.
  destruct (wr1_cell' (repeat None l) l (Some 0)) as (w0 & -> & L0 & C0); [rewrite repeat_length; lia|]. rewrite repeat_length in L0.
  unfold apply_rule at 1. rewrite Eb. cbn [w finest funcls sbrgns].
  assert (C0' : cell w0 (l - 1) = Some (Some 0)) by now rewrite C0, Nat.eqb_refl.
  rewrite (rs1_cell' w0 l 0); [|lia|exact C0'].
  destruct (wr1_cell' w0 l (Some (0 + b_errest b))) as (w1 & -> & L1 & C1); [lia|]. cbn [fst snd w finest funcls sbrgns].
  assert (Up : move_up (S (2 * n + 3)) (2 * n + 3) (b_errest b) (2 * n + 3) w1 = Ok ((0 + 1) * (2 * n + 3), w1)%nat).
  { cbn [move_up]. rewrite (Nat.div_small (2 * n + 3) ((2 * n + 3) * 2)) by lia. rewrite (proj2 (Nat.ltb_lt (0 * (2 * n + 3)) (2 * n + 3))) by lia. do 2 f_equal. lia. }
  rewrite Up. cbn [fst snd].
  destruct (store_ok n 0 b (centre_of lower upper) (half_of lower upper) w1 Lc Lh) as (w2 & -> & L2 & _ & O2); [lia|].
  match goal with |- context [refine _ _ _ _ _ _ _ _ ?s ?c] => destruct (refine_stop f rule l n l (rulcls n) (100 * rulcls n) relacc s c (b_errest b)) as (st' & Er) end; cbn [w finest funcls sbrgns] in *.
  - lia.
  - lia.
  - rewrite O2 by lia. rewrite C1, Nat.eqb_refl. do 2 f_equal. ring.
  - exact P.
  - rewrite Rplus_0_l. exact N.
  - rewrite Rplus_0_l. exact E.
  - rewrite Z.add_0_l. exact M.
  - rewrite Er. cbn [o_ifail o_finest o_relerr o_minpts]. rewrite Rplus_0_l, Z.add_0_l. reflexivity.
Qed.

(** BSRL when the integrand does not raise: the axis does not matter here *)
Lemma axes_total : forall f c h s n, (forall x, exists y, f x = Ok y) -> length c = n -> length h = n -> exists d, bsrl_axes f c h s n = Ok d.
Proof.
  intros f c h s n Hf Lc Lh. unfold bsrl_axes.
  destruct (iter_up _ (fun _ (_ : R * nat) => True) n 1 (fun i st =>
    let! c0 := rd1 c i in let! h0 := rd1 h i in
    let! z := wr1 c i (c0 - / 2 ^ 2 * h0) in let! p := f z in
    let! z := wr1 c i (c0 + / 2 ^ 2 * h0) in let! q := f z in
    let! z := wr1 c i (c0 - 3 * / 2 ^ 2 * h0) in let! p0 := f z in
    let! z := wr1 c i (c0 + 3 * / 2 ^ 2 * h0) in let! q0 := f z in
    if Rltb (Rabs ((p + q - 2 * s) - (/ 2 ^ 2 / (3 * / 2 ^ 2)) ^ 2 * (p0 + q0 - 2 * s))) (fst st) then Ok st
    else Ok (Rabs ((p + q - 2 * s) - (/ 2 ^ 2 / (3 * / 2 ^ 2)) ^ 2 * (p0 + q0 - 2 * s)), i)) (-1, 0%nat) I) as (d & E & _).
  - intros i st Hi _. rewrite (rd1_comp c), (rd1_comp h) by lia.
    rewrite (wr1_along c i _ (- (/ 2 ^ 2 * comp i h))) by (lia || ring). destruct (Hf (along i (- (/ 2 ^ 2 * comp i h)) c)) as [y1 ->].
    rewrite (wr1_along c i _ (/ 2 ^ 2 * comp i h)) by (lia || ring). destruct (Hf (along i (/ 2 ^ 2 * comp i h) c)) as [y2 ->].
    rewrite (wr1_along c i _ (- (3 * / 2 ^ 2 * comp i h))) by (lia || ring). destruct (Hf (along i (- (3 * / 2 ^ 2 * comp i h)) c)) as [y3 ->].
    rewrite (wr1_along c i _ (3 * / 2 ^ 2 * comp i h)) by (lia || ring). destruct (Hf (along i (3 * / 2 ^ 2 * comp i h) c)) as [y4 ->].
    destruct (Rltb _ _); eexists; split; reflexivity || exact I.
  - exists d. exact E.
Qed.

(** Exact rules: orders 2 to 4 agree *)
Lemma adapt_exact : forall f rule lower upper relacc maxfac wrkfac v z z' z'', (2 <= length lower <= 20)%nat -> length upper = length lower ->
  (forall x, exists y, f x = Ok y) ->
  let c := centre_of lower upper in let h := half_of lower upper in
  rule c h 4%nat = Ok (v, z) -> rule c h 3%nat = Ok (v, z') -> rule c h 2%nat = Ok (v, z'') ->
  v <> 0 -> 0 < relacc -> (rulcls (length lower) <= z + 4 * Z.of_nat (length lower))%Z ->
  adapt f rule lower upper relacc maxfac wrkfac = Ok (Some (v, 0, (z + 4 * Z.of_nat (length lower))%Z)).
Proof.
  intros f rule lower upper relacc maxfac wrkfac v z z' z'' Hn Hl Hf c h R4 R3 R2 Hv Ha Hz.
  destruct (box_len lower upper Hl) as [Lc Lh]. fold c in Lc. fold h in Lh.
  destruct (Hf c) as [y Hy]. destruct (axes_total f c h y (length lower) Hf Lc Lh) as [d Hd].
  assert (O : bsrl_orders rule c h (rulcls (length lower)) 0 4 8 = Ok (0, v, z)).
  { cbn [bsrl_orders Nat.sub]. rewrite R4, R3, R2. cbn [fst snd]. rewrite !Rminus_diag_eq by reflexivity. rewrite !Rabs_R0.
    rewrite (proj2 (Reqb_spec 0 0) eq_refl). rewrite (proj2 (Rleb_spec 0 (5 * 0))) by lra. reflexivity. }
  assert (B : exists a, bsrl f rule (length lower) c h (rulcls (length lower)) 0 0 = Ok (Basic (z + 4 * Z.of_nat (length lower)) 0 v a)).
  { unfold bsrl. rewrite O, Hy, Hd. eexists. reflexivity. }
  destruct B as [a B].
  assert (Q : Rmin 1 (0 / Rabs v) = 0) by (unfold Rdiv; rewrite Rmult_0_l; apply Rmin_right; lra).
  assert (X := adapt_at_once f rule lower upper relacc maxfac wrkfac _ Hn Hl B). cbn [b_errest b_basest b_funcls] in X. rewrite Q in X.
  apply X; [lra|exact Hv|exact Ha|exact Hz].
Qed.

(** Bad arguments *)
Lemma adapt_dims : forall f rule lower upper relacc maxfac wrkfac,
  (length upper <> length lower -> adapt f rule lower upper relacc maxfac wrkfac = Err ValueError) /\
  (length upper = length lower -> (length lower < 2 \/ 20 < length lower)%nat -> adapt f rule lower upper relacc maxfac wrkfac = Ok None).
Proof.
  intros. unfold adapt, adapt_sizes. cbv zeta. split.
  - intros H. destruct (Nat.eqb_spec (length upper) (length lower)); [contradiction|reflexivity].
  - intros -> H. rewrite Nat.eqb_refl. cbn [negb]. unfold fortran.
    assert (Q : ((length lower <? 2) || (20 <? length lower))%nat%bool = true) by (apply orb_true_iff; destruct H; [left|right]; now apply Nat.ltb_lt).
    now rewrite Q.
Qed.
Lemma adapt_outcomes : forall f rule lower upper relacc maxfac wrkfac, (2 <= length lower <= 20)%nat -> length upper = length lower ->
  match adapt f rule lower upper relacc maxfac wrkfac with
  | Ok (Some (v, e, npts)) => answer f rule lower upper relacc v e npts
  | Ok None => False
  | Err e => e = RuntimeError \/ (exists x, f x = Err e) \/ (exists c h o, rule c h o = Err e)
  end.
Proof.
  intros f rule lower upper relacc maxfac wrkfac Hn Hl. assert (A := adapt_ok f rule lower upper relacc maxfac wrkfac Hn Hl).
  destruct (adapt f rule lower upper relacc maxfac wrkfac) as [r|e]; cbn [okor] in A; [|exact A]. destruct A as (v & e & npts & -> & A). exact A.
Qed.
Lemma adapt_none : forall f rule lower upper relacc maxfac wrkfac,
  (length upper <> length lower -> adapt f rule lower upper relacc maxfac wrkfac = Err ValueError) /\
  (length upper = length lower -> (adapt f rule lower upper relacc maxfac wrkfac = Ok None <-> (length lower < 2 \/ 20 < length lower)%nat)).
Proof.
  intros f rule lower upper relacc maxfac wrkfac. destruct (adapt_dims f rule lower upper relacc maxfac wrkfac) as [D1 D2].
  split; [exact D1|]. intros Hl. split; [|now apply D2]. intros H.
  assert (X : (length lower < 2 \/ 20 < length lower \/ 2 <= length lower <= 20)%nat) by lia. destruct X as [X|[X|X]]; [now left|now right|].
  assert (A := adapt_outcomes f rule lower upper relacc maxfac wrkfac X Hl). rewrite H in A. contradiction.
Qed.
