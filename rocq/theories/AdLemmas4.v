(** ADAPT as a whole *)

From Coq Require Import List Bool Arith ZArith Reals Permutation Lra Lia.
From Verif Require Import Exn Instances McModel McLemmas4 BaModel BaLemmas ObsModel ObsLemmas ObsLemmas2 AdModel AdSpec AdLemmas AdLemmas2 AdLemmas3.
Import ListNotations.
Open Scope R_scope.

Section Whole.
Variable f : list R -> res R.
Variable symrl : list R -> list R -> nat -> res (R * Z).
Variable n lenwrk : nat.
Hypothesis n_pos : (1 <= n)%nat.
Local Notation inv := (inv f symrl n lenwrk).

Definition ended (minpts : Z) (eps : R) (r0 : region) (o : output) : Prop :=
  exists rs, inv r0 rs (o_end o) /\ o_finest o = total r_val rs /\ funcls (o_end o) = o_minpts o /\ relative rs (o_relerr o) /\ (o_ifail o < 3)%nat /\
    (o_ifail o = 0%nat <-> o_relerr o < eps /\ (minpts <= o_minpts o)%Z).

Lemma inv_total : forall r0 rs st, inv r0 rs st -> 0 <= total r_err rs.
Proof.
  intros r0 rs st I. apply total_nonneg. intros r Hr. apply (measured_err f symrl). now destruct (reached_measured f symrl r0 rs (i_way _ _ _ _ _ _ _ I) r Hr).
Qed.

Lemma check_ok : forall minpts maxpts eps r0 rs st, inv r0 rs st ->
  exists e i st', check_end (2 * n + 3) lenwrk minpts maxpts eps st = Ok (e, i, st') /\ inv r0 rs st' /\ relative rs e /\ funcls st' = funcls st /\
    (i < 3 \/ i = 3 /\ sbrgns st + (2 * n + 3) + 2 <= lenwrk)%nat /\ (i = 0%nat <-> e < eps /\ (minpts <= funcls st)%Z) /\
    ((funcls st + Z.quot (funcls st * Z.of_nat (2 * n + 3)) (Z.of_nat (sbrgns st)) <= maxpts)%Z -> (sbrgns st + (2 * n + 3) + 2 <= lenwrk)%nat -> i = 0%nat \/ i = 3%nat).
Proof.
  intros minpts maxpts eps r0 rs st I. assert (T := inv_total _ _ _ I). assert (I' := I). destruct I as [Len Sub Fits Some_ Lst Ord Val Er Dim Cnt Way].
  unfold check_end. assert (LW : (1 <= lenwrk)%nat) by lia. rewrite (rs1_cell' _ _ _ LW Er).
  assert (X : exists w', (if Rleb (total r_err rs) 0 then wr1 (w st) lenwrk (Some 0) else Ok (w st)) = Ok w' /\ length w' = lenwrk /\
     cell w' (lenwrk - 1) = Some (Some (total r_err rs)) /\ forall k, (k <> lenwrk - 1)%nat -> cell w' k = cell (w st) k).
  { destruct (Rleb (total r_err rs) 0) eqn:Q.
    - apply Rleb_spec in Q. assert (Z0 : total r_err rs = 0) by lra.
      destruct (wr1_cell' (w st) lenwrk (Some 0)) as (w' & -> & L & C); [lia|]. exists w'. split; [reflexivity|]. split; [congruence|].
      split; [rewrite C, Nat.eqb_refl, Z0; reflexivity|]. intros k Hk. rewrite C. destruct (Nat.eqb_spec k (lenwrk - 1)); [contradiction|reflexivity].
    - exists (w st). auto. }
  destruct X as (w' & -> & L' & C' & O'). rewrite (rs1_cell' _ _ _ LW C').
  set (e := if Rltb 1 _ then 1 else _).
  set (i := if Rltb e eps && _ then _ else _).
  exists e, i, (State w' (finest st) (funcls st) (sbrgns st)). split; [reflexivity|]. split.
  { constructor; cbn [w finest sbrgns]; try assumption.
    apply (listed_other n n_pos (w st)); [|exact Lst]. intros k Hk. apply O'. lia. }
  split.
  { unfold relative, e. rewrite Val. destruct (Reqb (Rabs (total r_val rs)) 0) eqn:Q.
    - apply Reqb_spec in Q. left. split; [|rewrite (proj2 (Rltb_false 1 1)) by lra; reflexivity].
      destruct (Req_EM_T (total r_val rs) 0) as [E|N]; [exact E|]. apply Rabs_no_R0 in N. contradiction.
    - apply Reqb_false in Q. right. split; [intros E; rewrite E, Rabs_R0 in Q; now apply Q|].
      destruct (Rltb 1 (total r_err rs / Rabs (total r_val rs))) eqn:Q1.
      + apply Rltb_spec in Q1. symmetry. apply Rmin_left. lra.
      + apply Rltb_false in Q1. symmetry. apply Rmin_right. lra. }
  split; [reflexivity|]. unfold i. split; [|split].
  - destruct (Rltb e eps && (minpts <=? funcls st)%Z)%bool; [left; lia|].
    destruct (maxpts <? _)%Z; [left; lia|].
    destruct (Z.ltb_spec (Z.of_nat lenwrk - 2) (Z.of_nat (sbrgns st + (2 * n + 3)))); [left; lia|right; split; [reflexivity|lia]].
  - destruct (Rltb e eps) eqn:Q1, (Z.leb_spec minpts (funcls st)) as [Q2|Q2]; cbn [andb].
    + apply Rltb_spec in Q1. tauto.
    + split; [|lia]. destruct (maxpts <? _)%Z; [discriminate|]. destruct (_ <? _)%Z; discriminate.
    + apply Rltb_false in Q1. split; [|lra]. destruct (maxpts <? _)%Z; [discriminate|]. destruct (_ <? _)%Z; discriminate.
    + split; [|lia]. destruct (maxpts <? _)%Z; [discriminate|]. destruct (_ <? _)%Z; discriminate.
  - intros H1 H2. destruct (Rltb e eps && (minpts <=? funcls st)%Z)%bool; [now left|]. right.
    replace (maxpts <? _)%Z with false by (symmetry; now apply Z.ltb_ge). now replace (_ <? _)%Z with false by (symmetry; apply Z.ltb_ge; lia).
Qed.

Lemma refine_ok : forall fuel minpts maxpts eps r0 rs st c h, inv r0 rs st -> (lenwrk < fuel + length rs)%nat -> length c = n -> length h = n ->
  okor (raises f symrl) (refine f symrl fuel n lenwrk minpts maxpts eps st (c, h)) (ended minpts eps r0).
Proof.
  induction fuel as [|fuel IH]; intros minpts maxpts eps r0 rs st c h I Hf Lc Lh.
  - assert (F := i_fit _ _ _ _ _ _ _ I). nia.
  - cbn [refine]. destruct (check_ok minpts maxpts eps r0 rs st I) as (e & i & st' & -> & I' & Re & Fu & Hi & Hs & _).
    destruct (Nat.ltb_spec i 3) as [H3|H3].
    + assert (I2 := I'). destruct I' as [Len Sub Fits Some_ Lst Ord Val Er Dim Cnt Way].
      destruct (wr1_cell' (w st') (lenwrk - 1) (Some (INR (sbrgns st')))) as (w' & -> & L & C); [lia|].
      cbn. exists rs. cbn [o_end o_finest o_relerr o_ifail o_minpts]. split.
      { constructor; cbn [w finest sbrgns]; try assumption; [lia| |].
        - apply (listed_other n n_pos (w st')); [|exact Lst]. intros k Hk. rewrite C. destruct (Nat.eqb_spec k (lenwrk - 1 - 1)); [lia|reflexivity].
        - rewrite C. destruct (Nat.eqb_spec (lenwrk - 1) (lenwrk - 1 - 1)); [lia|exact Er]. }
      split; [exact Val|]. split; [reflexivity|]. split; [exact Re|]. split; [exact H3|]. rewrite Fu. exact Hs.
    + destruct Hi as [Hi|[_ Hi]]; [lia|].
      eapply okor_bind.
      * apply (divide_ok f symrl n lenwrk n_pos maxpts eps r0 rs st' c h I'); [|exact Lc|exact Lh].
        rewrite (i_sub _ _ _ _ _ _ _ I'), <- (i_sub _ _ _ _ _ _ _ I). exact Hi.
      * intros [st2 [c2 h2]] (L1 & L2 & rs2 & Lr & I3). cbn [fst snd] in *. apply (IH minpts maxpts eps r0 rs2); [exact I3|lia|exact L1|exact L2].
Qed.

(** The loop succeeds *)
Lemma share_fits : forall F j x y d k, (1 <= j)%Z -> (j + 1 <= k)%Z -> ((2 * j - 1) * (x + 4 * d) <= F)%Z -> (F <= (2 * j - 1) * (y + 4 * d))%Z -> (0 <= x + 4 * d)%Z ->
  (F + F ÷ j <= (2 * k - 1) * (y + 4 * d))%Z.
Proof.
  intros F j x y d k Hj Hk H1 H2 Hx. set (g := (y + 4 * d)%Z) in *. set (g0 := (x + 4 * d)%Z) in *.
  assert (A : (0 <= (2 * j - 1) * g0)%Z) by (apply Z.mul_nonneg_nonneg; lia).
  assert (Hg : (0 <= g)%Z) by (apply (Zmult_le_0_reg_r (2 * j - 1)); lia).
  rewrite Z.quot_div_nonneg by lia. assert (Q : (F / j <= 2 * g)%Z).
  { apply Z.div_le_upper_bound; [lia|]. replace (j * (2 * g))%Z with ((2 * j - 1) * g + g)%Z by ring. lia. }
  assert (B := Z.mul_le_mono_nonneg_r (2 * j + 1) (2 * k - 1) g Hg ltac:(lia)). replace ((2 * j + 1) * g)%Z with ((2 * j - 1) * g + 2 * g)%Z in B by ring. lia.
Qed.
Lemma refine_succeeds : forall k lo hi minpts maxpts eps r0, (forall e, ~ raises f symrl e) -> costs symrl lo hi ->
  (0 <= lo)%Z -> ((2 * Z.of_nat k - 1) * (hi + 4 * Z.of_nat n) <= maxpts)%Z -> (minpts <= (2 * Z.of_nat k - 1) * (lo + 4 * Z.of_nat n))%Z -> (k * (2 * n + 3) + 2 <= lenwrk)%nat ->
  (forall rs e, reached f symrl r0 rs -> length rs = k -> relative rs e -> e < eps) ->
  forall fuel rs st c h, inv r0 rs st -> (length rs <= k)%nat -> (lenwrk < fuel + length rs)%nat -> length c = n -> length h = n ->
  exists o, refine f symrl fuel n lenwrk minpts maxpts eps st (c, h) = Ok o /\ o_ifail o = 0%nat.
Proof.
  intros k lo hi minpts maxpts eps r0 NR Co Lo Mx Mn Fit Good. induction fuel as [|fuel IH]; intros rs st c h I Hk Hf Lc Lh.
  - assert (F := i_fit _ _ _ _ _ _ _ I). nia.
  - cbn [refine]. destruct (check_ok minpts maxpts eps r0 rs st I) as (e & i & st' & -> & I' & Re & Fu & Hi & Hs & Go).
    assert (Cnt := i_cnt _ _ _ _ _ _ _ I lo hi Co). assert (Sub := i_sub _ _ _ _ _ _ _ I). assert (One := i_some _ _ _ _ _ _ _ I).
    assert (Zero : i = 0%nat \/ ((length rs < k)%nat /\ i = 3%nat)).
    { destruct (Nat.eq_dec (length rs) k) as [Ek|Nk].
      - left. apply Hs. split; [apply (Good rs e (i_way _ _ _ _ _ _ _ I) Ek Re)|]. rewrite Ek in Cnt. lia.
      - assert (Lk0 : (S (length rs) <= k)%nat) by lia. assert (X : i = 0%nat \/ i = 3%nat); [|destruct X; [now left|right; split; [lia|assumption]]]. apply Go.
        + rewrite Sub. set (j := Z.of_nat (length rs)) in *. assert (Hj : (1 <= j)%Z) by lia. assert (Hjk : (j + 1 <= Z.of_nat k)%Z) by lia.
          replace (Z.of_nat (length rs * (2 * n + 3))) with (j * Z.of_nat (2 * n + 3))%Z by lia.
          rewrite Z.quot_mul_cancel_r by lia.
          assert (Q := share_fits _ _ _ _ _ (Z.of_nat k) Hj Hjk (proj1 Cnt) (proj2 Cnt) ltac:(lia)). lia.
        + rewrite Sub. assert (Q4 := Nat.mul_le_mono_r (S (length rs)) k (2 * n + 3) Lk0). lia. }
    destruct Zero as [->|[Lk ->]].
    + cbn [Nat.ltb Nat.leb]. destruct I' as [Len _ Fits _ _ _ _ _ _ _ _].
      destruct (wr1_cell' (w st') (lenwrk - 1) (Some (INR (sbrgns st')))) as (w' & -> & _); [lia|]. eexists. split; reflexivity.
    + cbn [Nat.ltb Nat.leb]. destruct Hi as [Hi|[_ Hi]]; [lia|].
      assert (D := divide_ok f symrl n lenwrk n_pos maxpts eps r0 rs st' c h I').
      rewrite (i_sub _ _ _ _ _ _ _ I'), <- Sub in D. specialize (D Hi Lc Lh).
      destruct (divide f symrl n lenwrk maxpts eps st' (c, h)) as [[st2 [c2 h2]]|e0]; cbn [okor fst snd] in *; [|now elim (NR e0)].
      destruct D as (L1 & L2 & rs2 & Lr & I3). apply (IH rs2); [exact I3|lia|lia|exact L1|exact L2].
Qed.

(** The first region *)
Lemma start_ok : forall c h maxcls st0, length c = n -> length h = n -> (2 * n + 3 + 2 <= lenwrk)%nat ->
  length (w st0) = lenwrk -> cell (w st0) (lenwrk - 1) = Some (Some 0) -> finest st0 = 0 -> sbrgns st0 = (2 * n + 3)%nat -> funcls st0 = 0%Z ->
  okor (raises f symrl)
    (let! r := apply_rule f symrl n lenwrk c h maxcls 0 0 st0 in
     let (b, st) := (fst r, snd r) in
     let! p := move_up (S (sbrgns st)) (2 * n + 3) (b_errest b) (2 * n + 3) (w st) in
     let! w' := store n (fst p) b c h (snd p) in
     Ok (State w' (finest st) (funcls st) (sbrgns st)))
    (fun st => exists r0, r_centre r0 = c /\ r_half r0 = h /\ inv r0 [r0] st /\
       exists o z, (4 <= o <= 12)%nat /\ used_order symrl c h o (r_err r0) (r_val r0) z /\ funcls st = (z + 4 * Z.of_nat n)%Z).
Proof.
  intros c h maxcls st0 Lc Lh HL L0 C0 F0 S0 U0.
  eapply okor_bind; [apply (apply_ok f symrl n lenwrk n_pos c h maxcls 0 0 st0 0 Lc Lh L0); [lia|exact C0]|].
  intros [b st] (M & V & S & L & C & O & o & z & Ho & Uo & Fo). cbn [fst snd] in *.
  set (r0 := region_of b c h) in *.
  destruct (up_ok (Datatypes.S (sbrgns st)) n (b_errest b) [r0] 1 (w st)) as (out & Eo & Po); [cbn; lia|lia|cbn [length]; lia| | | |].
  { intros i r Hi Hr. destruct i as [|i]; [now elim Hi|]. destruct i; discriminate. }
  { split; intros m Hm; cbn in Hm; lia. }
  { intros m Hm; cbn in Hm; lia. }
  replace (1 * (2 * n + 3))%nat with (2 * n + 3)%nat in Eo by lia. rewrite Eo.
  destruct (store_placed n [r0] 1 (w st) b c h out Po Lc Lh) as (w' & rs & -> & L' & K & Lst & T & P & Ord); [cbn [length]; lia|].
  change (upd (1 - 1) (Region (b_errest b) (b_basest b) (b_divaxn b) c h) [r0]) with [r0] in P.
  apply Permutation_length_1_inv in P. subst rs.
  unfold okor. exists r0. split; [reflexivity|]. split; [reflexivity|]. split.
  - constructor; cbn [w finest sbrgns length]; try assumption; try lia.
    + rewrite V, F0. unfold total. cbn. lra.
    + rewrite T by (cbn [length]; lia). rewrite C. unfold total. cbn. do 2 f_equal. lra.
    + intros lo hi Co. destruct Uo as (q1 & q1' & y1 & y1' & U1 & _). assert (Z1 := Co _ _ _ _ _ Ho U1). cbn [funcls]. rewrite Fo, U0. lia.
    + now apply reached_start.
  - exists o, z. split; [exact Ho|]. split; [exact Uo|]. cbn [funcls]. rewrite Fo, U0. lia.
Qed.
End Whole.

(** The subroutine in range *)
Lemma whole_is : forall a b, whole a b = (centre_of a b, half_of a b).
Proof.
  intros a b. unfold whole, centre_of, half_of. f_equal; apply map_ext; intros [x y]; cbn [fst snd]; field.
Qed.
Lemma box_len : forall a b, length b = length a -> length (centre_of a b) = length a /\ length (half_of a b) = length a.
Proof. intros a b H. unfold centre_of, half_of. rewrite !map_length, combine_length. lia. Qed.

Lemma fortran_ok : forall f symrl a b minpts maxpts eps lenwrk, (2 <= length a <= 20)%nat -> length b = length a -> (0 <= minpts <= maxpts)%Z -> (2 * length a + 3 + 2 <= lenwrk)%nat ->
  okor (raises f symrl) (fortran f symrl a b minpts maxpts eps lenwrk)
    (fun o => exists out r0, o = Some out /\ r_centre r0 = centre_of a b /\ r_half r0 = half_of a b /\ ended f symrl (length a) lenwrk minpts eps r0 out).
Proof.
  intros f symrl a b minpts maxpts eps lenwrk Hn Lb Hm HL. unfold fortran.
  replace (length a <? 2)%nat with false by (symmetry; apply Nat.ltb_ge; lia). replace (20 <? length a)%nat with false by (symmetry; apply Nat.ltb_ge; lia). cbn [orb].
  replace (maxpts <? minpts)%Z with false by (symmetry; apply Z.ltb_ge; lia). replace (minpts <? 0)%Z with false by (symmetry; apply Z.ltb_ge; lia).
  rewrite whole_is. destruct (box_len a b Lb) as [Lc Lh].
  set (mc := Z.min _ _).
  destruct (wr1_cell' (repeat None lenwrk) lenwrk (Some 0)) as (w0 & -> & L0 & C0); [rewrite repeat_length; lia|]. rewrite repeat_length in L0.
  set (st0 := State w0 0 0 (2 * length a + 3)).
  assert (S1 := start_ok f symrl (length a) lenwrk ltac:(lia) (centre_of a b) (half_of a b) mc st0 Lc Lh HL L0).
  assert (C0' : cell (w st0) (lenwrk - 1) = Some (Some 0)) by (cbn [w st0]; rewrite C0, Nat.eqb_refl; reflexivity).
  specialize (S1 C0' eq_refl eq_refl eq_refl).
  destruct (apply_rule f symrl (length a) lenwrk (centre_of a b) (half_of a b) mc 0 0 st0) as [[bb st]|e]; [|exact S1]. cbn [fst snd] in *.
  destruct (move_up (S (sbrgns st)) (2 * length a + 3) (b_errest bb) (2 * length a + 3) (w st)) as [[p w1]|e]; [|exact S1]. cbn [fst snd] in *.
  destruct (store (length a) p bb (centre_of a b) (half_of a b) w1) as [w2|e]; [|exact S1].
  cbn [okor] in S1. destruct S1 as (r0 & Ec & Eh & I & _).
  eapply okor_bind; [apply (refine_ok f symrl (length a) lenwrk ltac:(lia) (S lenwrk) minpts maxpts eps r0 [r0] _ (centre_of a b) (half_of a b) I); [lia|exact Lc|exact Lh]|].
  intros o Ho. cbn [okor]. exists o, r0. auto.
Qed.

(** adapt_sizes *)
Lemma rulcls_pos : forall n, (0 < rulcls n)%Z.
Proof. intros n. unfold rulcls. assert (0 <= 2 ^ Z.of_nat n)%Z by (apply Z.pow_nonneg; lia). assert (0 <= Z.of_nat n ^ 2)%Z by (apply Z.pow_nonneg; lia). lia. Qed.
Lemma lenwrk_is : forall n, (2 <= n)%nat -> let l := Z.to_nat (to_int (IZR ((2 * Z.of_nat n + 3) * (1 + 100)) / 2)) in
  (50 * (2 * n + 3) + 3 <= l < 51 * (2 * n + 3))%nat.
Proof.
  intros n Hn l. set (x := (2 * Z.of_nat n + 3)%Z) in *.
  assert (Hx : (7 <= x)%Z) by lia.
  assert (P : 0 <= IZR (x * (1 + 100)) / 2) by (assert (0 <= IZR (x * (1 + 100))) by (apply IZR_le; lia); lra).
  destruct (to_int_floor _ P) as [H1 H2]. set (t := to_int (IZR (x * (1 + 100)) / 2)) in *.
  assert (A : (2 * t <= x * 101)%Z) by (apply le_IZR; rewrite mult_IZR; replace (x * 101)%Z with (x * (1 + 100))%Z by lia; lra).
  assert (B : (x * 101 < 2 * t + 2)%Z) by (apply lt_IZR; rewrite plus_IZR, (mult_IZR 2 t); replace (x * 101)%Z with (x * (1 + 100))%Z by lia; lra).
  unfold l. lia.
Qed.

(** adapt *)
Lemma adapt_ok : forall f rule lower upper relacc maxfac wrkfac, (2 <= length lower <= 20)%nat -> length upper = length lower ->
  okor (fun e => e = RuntimeError \/ raises f rule e) (adapt f rule lower upper relacc maxfac wrkfac)
    (fun r => exists v e npts, r = Some (v, e, npts) /\ answer f rule lower upper relacc v e npts).
Proof.
  intros f rule lower upper relacc maxfac wrkfac Hn Hl. unfold adapt, adapt_sizes. cbv zeta.
  rewrite Hl, Nat.eqb_refl. cbn [negb]. fold (rulcls (length lower)).
  assert (RP := rulcls_pos (length lower)). destruct (lenwrk_is (length lower)) as [W1 W2]; [lia|].
  set (l := Z.to_nat _) in *.
  assert (H := fortran_ok f rule lower upper (rulcls (length lower)) (100 * rulcls (length lower)) relacc l Hn Hl ltac:(lia) ltac:(lia)).
  destruct (fortran f rule lower upper (rulcls (length lower)) (100 * rulcls (length lower)) relacc l) as [o|e]; [|right; exact H].
  cbn [okor] in H. destruct H as (out & r0 & -> & Ec & Eh & rs & I & V & Fo & Re & H3 & Hi).
  destruct (o_ifail out) as [|[|[|k]]] eqn:Ei; [|left; reflexivity|left; reflexivity|lia].
  cbn [okor]. exists (o_finest out), (o_relerr out), (o_minpts out). split; [reflexivity|].
  destruct (proj1 Hi eq_refl) as [He Hm].
  exists r0, rs. split; [exact Ec|]. split; [exact Eh|]. split; [exact (i_way _ _ _ _ _ _ _ I)|].
  split; [assert (F := i_fit _ _ _ _ _ _ _ I); nia|]. repeat (split; [assumption|]). rewrite <- Fo. exact (i_cnt _ _ _ _ _ _ _ I).
Qed.

(** When adapt succeeds *)
Lemma adapt_succeeds : forall f rule lower upper relacc maxfac wrkfac k lo hi, (2 <= length lower <= 20)%nat -> length upper = length lower ->
  (forall x, exists y, f x = Ok y) -> (forall c h o, exists y, rule c h o = Ok y) -> costs rule lo hi -> (0 <= lo)%Z ->
  (1 <= k <= 50)%nat -> ((2 * Z.of_nat k - 1) * (hi + 4 * Z.of_nat (length lower)) <= 100 * rulcls (length lower))%Z ->
  (rulcls (length lower) <= (2 * Z.of_nat k - 1) * (lo + 4 * Z.of_nat (length lower)))%Z ->
  (forall r0 rs e, r_centre r0 = centre_of lower upper -> r_half r0 = half_of lower upper -> reached f rule r0 rs -> length rs = k -> relative rs e -> e < relacc) ->
  exists v e npts, adapt f rule lower upper relacc maxfac wrkfac = Ok (Some (v, e, npts)).
Proof.
  intros f rule a b relacc maxfac wrkfac k lo hi Hn Lb Hf Hr Co Lo Hk Mx Mn Good.
  assert (NR : forall e, ~ raises f rule e).
  { intros e [[x E]|(c & h & o & E)]; [destruct (Hf x) as [y Y]|destruct (Hr c h o) as [y Y]]; congruence. }
  unfold adapt, adapt_sizes. cbv zeta. rewrite Lb, Nat.eqb_refl. cbn [negb]. fold (rulcls (length a)).
  assert (RP := rulcls_pos (length a)). destruct (lenwrk_is (length a)) as [W1 W2]; [lia|].
  set (l := Z.to_nat _) in *. clearbody l.
  unfold fortran.
  replace (length a <? 2)%nat with false by (symmetry; apply Nat.ltb_ge; lia). replace (20 <? length a)%nat with false by (symmetry; apply Nat.ltb_ge; lia). cbn [orb].
  replace (100 * rulcls (length a) <? rulcls (length a))%Z with false by (symmetry; apply Z.ltb_ge; lia). replace (rulcls (length a) <? 0)%Z with false by (symmetry; apply Z.ltb_ge; lia).
  rewrite whole_is. destruct (box_len a b Lb) as [Lc Lh].
  set (mc := Z.min _ _).
  destruct (wr1_cell' (repeat None l) l (Some 0)) as (w0 & -> & L0 & C0); [rewrite repeat_length; lia|]. rewrite repeat_length in L0.
  set (st0 := State w0 0 0 (2 * length a + 3)).
  assert (S1 := start_ok f rule (length a) l ltac:(lia) (centre_of a b) (half_of a b) mc st0 Lc Lh ltac:(lia) L0).
  assert (C0' : cell (w st0) (l - 1) = Some (Some 0)) by (cbn [w st0]; rewrite C0, Nat.eqb_refl; reflexivity).
  specialize (S1 C0' eq_refl eq_refl eq_refl).
  destruct (apply_rule f rule (length a) l (centre_of a b) (half_of a b) mc 0 0 st0) as [[bb st]|e]; [|now elim (NR e)]. cbn [fst snd] in *.
  destruct (move_up (S (sbrgns st)) (2 * length a + 3) (b_errest bb) (2 * length a + 3) (w st)) as [[p w1]|e]; [|now elim (NR e)]. cbn [fst snd] in *.
  destruct (store (length a) p bb (centre_of a b) (half_of a b) w1) as [w2|e]; [|now elim (NR e)].
  cbn [okor] in S1. destruct S1 as (r0 & Ec & Eh & I & _).
  assert (Fit : (k * (2 * length a + 3) + 2 <= l)%nat) by (assert (Q4 := Nat.mul_le_mono_r k 50 (2 * length a + 3) ltac:(lia)); lia).
  destruct (refine_succeeds f rule (length a) l ltac:(lia) k lo hi (rulcls (length a)) (100 * rulcls (length a)) relacc r0 NR Co Lo Mx Mn Fit (fun rs e => Good r0 rs e Ec Eh) (S l) [r0] _ (centre_of a b) (half_of a b) I) as (o & Eo & Ho); [cbn; lia|lia|exact Lc|exact Lh|].
  rewrite Eo, Ho. eexists _, _, _. reflexivity.
Qed.

(** Covering and halving *)
Lemma rabs_between : forall a b, Rabs a <= b -> - b <= a <= b.
Proof. intros a b H. unfold Rabs in H. destruct (Rcase_abs a); lra. Qed.
Lemma in_halves : forall a c h x, length h = length c -> (1 <= a <= length c)%nat -> in_box c h x -> in_box (low_centre a c h) (half_half a h) x \/ in_box (high_centre a c h) (half_half a h) x.
Proof.
  intros a c h x Lh Ha [Lx H]. assert (Q := H a Ha). assert (D : comp a x <= comp a c \/ comp a c <= comp a x) by lra.
  destruct D as [D|D]; [left|right]; (split; [unfold low_centre, high_centre; rewrite along_len; exact Lx|]);
    unfold low_centre, high_centre, half_half; rewrite along_len; intros b Hb; rewrite !comp_along by lia; specialize (H b Hb);
    (destruct (Nat.eqb_spec b a) as [->|N]; [|rewrite !Rplus_0_r; exact H]);
    apply Rabs_le; apply rabs_between in Q; lra.
Qed.
Lemma halves_in : forall a c h x, length h = length c -> (1 <= a <= length c)%nat -> inside (low_centre a c h) (half_half a h) x \/ inside (high_centre a c h) (half_half a h) x -> inside c h x.
Proof.
  intros a c h x Lh Ha H. assert (L1 : length (low_centre a c h) = length c) by apply along_len. assert (L2 : length (high_centre a c h) = length c) by apply along_len.
  assert (K : forall y, y = x -> inside (low_centre a c h) (half_half a h) y \/ inside (high_centre a c h) (half_half a h) y -> inside c h x); [|now apply (K x)].
  intros y -> [[Lx X]|[Lx X]]; (split; [congruence|]); intros b Hb; specialize (X b); rewrite ?L1, ?L2 in X; specialize (X Hb);
    unfold low_centre, high_centre, half_half in X; rewrite !comp_along in X by lia; revert X; (destruct (Nat.eqb_spec b a) as [->|N]; intros X; [|rewrite !Rplus_0_r in X; exact X]);
    apply Rabs_def2 in X; apply Rabs_def1; lra.
Qed.
Lemma halves_apart : forall a c h x, length h = length c -> (1 <= a <= length c)%nat -> inside (low_centre a c h) (half_half a h) x -> inside (high_centre a c h) (half_half a h) x -> False.
Proof.
  intros a c h x Lh Ha [_ X] [_ Y]. specialize (X a). specialize (Y a). unfold low_centre, high_centre, half_half in X, Y. rewrite along_len in X, Y. specialize (X Ha). specialize (Y Ha).
  rewrite !comp_along, Nat.eqb_refl in X, Y by lia. apply Rabs_def2 in X. apply Rabs_def2 in Y. lra.
Qed.

Lemma fop_perm : forall A (P : A -> A -> Prop), (forall x y, P x y -> P y x) -> forall l l', Permutation l l' -> ForallOrdPairs P l -> ForallOrdPairs P l'.
Proof.
  intros A P Sym l l' H. induction H as [|x l l' H IH|x y l|l l' l'' H IH H' IH']; intros F; auto.
  - inversion F as [|? ? F1 F2]; subst. constructor; [|now apply IH]. eapply Permutation_Forall; [exact H|exact F1].
  - inversion F as [|? ? F1 F2]; subst. inversion F2 as [|? ? F3 F4]; subst. inversion F1 as [|? ? F5 F6]; subst.
    constructor; [constructor; [now apply Sym|exact F3]|]. constructor; assumption.
Qed.
Lemma reached_tiles : forall f rule r0 rs, reached f rule r0 rs ->
  (forall x, in_box (r_centre r0) (r_half r0) x -> exists r, In r rs /\ in_box (r_centre r) (r_half r) x) /\
  (forall r x, In r rs -> inside (r_centre r) (r_half r) x -> inside (r_centre r0) (r_half r0) x) /\ apart rs.
Proof.
  intros f rule r0 rs H. induction H as [M|rs rs' H IH (r & rest & r1 & r2 & P & _ & M1 & M2 & C1 & H1 & C2 & H2 & P')].
  - split; [|split].
    + intros x Hx. exists r0. split; [now left|exact Hx].
    + intros r x [<-|[]] Hx. exact Hx.
    + constructor; [constructor|constructor].
  - assert (Ir : In r rs) by (eapply Permutation_in; [symmetry; exact P|now left]).
    destruct (reached_measured f rule r0 rs H r Ir) as [(_ & Lh & Ax & _) _].
    destruct IH as (I1 & I2 & I3). split; [|split].
    + intros x Hx. destruct (I1 x Hx) as (q & Hq & Xq). apply (Permutation_in _ P) in Hq. destruct Hq as [<-|Hq].
      * destruct (in_halves (r_axis r) (r_centre r) (r_half r) x Lh Ax Xq) as [X|X]; [exists r1|exists r2]; (split; [eapply Permutation_in; [symmetry; exact P'|cbn; auto]|congruence]).
      * exists q. split; [|exact Xq]. eapply Permutation_in; [symmetry; exact P'|cbn; auto].
    + intros q x Hq Xq. apply (Permutation_in _ P') in Hq. destruct Hq as [<-|[<-|Hq]].
      * apply (I2 r x Ir). apply (halves_in (r_axis r)); [exact Lh|exact Ax|left; congruence].
      * apply (I2 r x Ir). apply (halves_in (r_axis r)); [exact Lh|exact Ax|right; congruence].
      * apply (I2 q x); [eapply Permutation_in; [symmetry; exact P|now right]|exact Xq].
    + assert (Sym : forall q s : region, (forall x, ~ (inside (r_centre q) (r_half q) x /\ inside (r_centre s) (r_half s) x)) -> forall x, ~ (inside (r_centre s) (r_half s) x /\ inside (r_centre q) (r_half q) x)).
      { intros q s X x [Y Z]. apply (X x). auto. }
      apply (fop_perm _ _ Sym _ _ P) in I3. inversion I3 as [|? ? F1 F2]; subst.
      apply (fop_perm _ _ Sym _ _ (Permutation_sym P')).
      assert (Sub : forall x q, In q rest -> inside (r_centre r) (r_half r) x -> ~ inside (r_centre q) (r_half q) x).
      { intros x q Hq X Y. rewrite Forall_forall in F1. apply (F1 q Hq x). auto. }
      constructor; [constructor|constructor; [|exact F2]].
      * intros x [X Y]. rewrite C1, H1 in X. rewrite C2, H2 in Y. exact (halves_apart _ _ _ x Lh Ax X Y).
      * apply Forall_forall. intros q Hq x [X Y]. apply (Sub x q Hq); [|exact Y]. apply (halves_in (r_axis r)); [exact Lh|exact Ax|left; congruence].
      * apply Forall_forall. intros q Hq x [X Y]. apply (Sub x q Hq); [|exact Y]. apply (halves_in (r_axis r)); [exact Lh|exact Ax|right; congruence].
Qed.

(** Additive quantities *)
Lemma reached_sum : forall f rule mu r0 rs, additive mu -> reached f rule r0 rs -> total (fun r => mu (r_centre r) (r_half r)) rs = mu (r_centre r0) (r_half r0).
Proof.
  intros f rule mu r0 rs Ad H. induction H as [M|rs rs' H IH (r & rest & r1 & r2 & P & _ & M1 & M2 & C1 & H1 & C2 & H2 & P')].
  - unfold total. cbn. ring.
  - assert (Ir : In r rs) by (eapply Permutation_in; [symmetry; exact P|now left]).
    destruct (reached_measured f rule r0 rs H r Ir) as [(_ & Lh & Ax & _) _].
    rewrite <- IH, (total_perm _ _ _ P), (total_perm _ _ _ P'). unfold total. cbn [map fold_right]. rewrite C1, H1, C2, H2, (Ad (r_axis r) (r_centre r) (r_half r) Ax Lh). ring.
Qed.
Lemma total_close : forall g h k rs, (forall r, In r rs -> Rabs (g r - h r) <= k r) -> Rabs (total g rs - total h rs) <= total k rs.
Proof.
  intros g h k rs H. unfold total. induction rs as [|r rs IH]; cbn [map fold_right]; [rewrite Rminus_0_r, Rabs_R0; lra|].
  assert (A : Rabs (g r - h r) <= k r) by (apply H; now left). assert (B := IH (fun q Hq => H q (or_intror Hq))).
  set (x := fold_right Rplus 0 (map g rs)) in *. set (y := fold_right Rplus 0 (map h rs)) in *.
  replace (g r + x - (h r + y)) with ((g r - h r) + (x - y)) by ring. eapply Rle_trans; [apply Rabs_triang|]. lra.
Qed.

Lemma adapt_sound : forall f rule mu lower upper relacc maxfac wrkfac v e npts,
  additive mu -> (forall r, measured f rule r -> Rabs (r_val r - mu (r_centre r) (r_half r)) <= r_err r) ->
  (2 <= length lower <= 20)%nat -> length upper = length lower -> relacc <= 1 ->
  adapt f rule lower upper relacc maxfac wrkfac = Ok (Some (v, e, npts)) ->
  Rabs (v - mu (centre_of lower upper) (half_of lower upper)) <= e * Rabs v.
Proof.
  intros f rule mu lower upper relacc maxfac wrkfac v e npts Ad M Hn Hl Hr E.
  assert (H := adapt_ok f rule lower upper relacc maxfac wrkfac Hn Hl). rewrite E in H. cbn [okor] in H.
  destruct H as (v' & e' & n' & X & r0 & rs & Ec & Eh & Re & _ & V & Rel & He & _). injection X as <- <- <-.
  rewrite <- Ec, <- Eh, <- (reached_sum f rule mu r0 rs Ad Re), V.
  eapply Rle_trans; [apply (total_close r_val _ r_err); intros r Hr'; apply M; now destruct (reached_measured f rule r0 rs Re r Hr')|].
  destruct Rel as [[_ ->]|[N ->]]; [lra|].
  assert (P : 0 < Rabs (total r_val rs)) by now apply Rabs_pos_lt.
  unfold Rmin in *. destruct (Rle_dec 1 _); [lra|]. right. field. lra.
Qed.

Lemma total_ext : forall g h rs, (forall r, In r rs -> g r = h r) -> total g rs = total h rs.
Proof. intros g h rs H. unfold total. f_equal. now apply map_ext_in. Qed.

(** Exact rules with sum zero never succeed *)
Lemma adapt_zero : forall f rule mu lower upper relacc maxfac wrkfac,
  additive mu -> (forall x, exists y, f x = Ok y) -> (forall c h o, exists z, rule c h o = Ok (mu c h, z)) ->
  (2 <= length lower <= 20)%nat -> length upper = length lower -> relacc <= 1 -> mu (centre_of lower upper) (half_of lower upper) = 0 ->
  adapt f rule lower upper relacc maxfac wrkfac = Err RuntimeError.
Proof.
  intros f rule mu lower upper relacc maxfac wrkfac Ad Hf Hr Hn Hl Ha H0.
  assert (H := adapt_ok f rule lower upper relacc maxfac wrkfac Hn Hl).
  destruct (adapt f rule lower upper relacc maxfac wrkfac) as [r|e]; cbn [okor] in H.
  - destruct H as (v & e & npts & _ & r0 & rs & Ec & Eh & Re & _ & V & Rel & He & _). exfalso.
    assert (T : total r_val rs = 0).
    { rewrite <- H0, <- Ec, <- Eh, <- (reached_sum f rule mu r0 rs Ad Re). apply total_ext.
      intros q0 Hr'. destruct (reached_measured f rule r0 rs Re q0 Hr') as [((o & q & q' & q'' & z & z' & z'' & _ & E & _ & _ & -> & _) & _) _].
      destruct (Hr (r_centre q0) (r_half q0) o) as [z0 E0]. rewrite E0 in E. now injection E as <- _. }
    destruct Rel as [[_ ->]|[N _]]; [lra|contradiction].
  - destruct H as [->|[[x E]|(c & h & o & E)]]; [reflexivity| |]; exfalso; [destruct (Hf x) as [y Y]|destruct (Hr c h o) as [z Y]]; congruence.
Qed.
