(** Integrands and rules which agree on the boxes that can be reached give the same result *)

From Coq Require Import List Bool Arith ZArith Reals Permutation Lra Lia.
From Verif Require Import Exn Instances McModel BaModel ObsModel AdModel AdSpec AdLemmas AdLemmas2 AdLemmas3 AdLemmas4.
Import ListNotations.
Open Scope R_scope.

Section Cong.
Variables f f' : list R -> res R.
Variables symrl symrl' : list R -> list R -> nat -> res (R * Z).
Variable n lenwrk : nat.
Hypothesis n_pos : (1 <= n)%nat.
Variable good : list R -> list R -> Prop.
Hypothesis good_half : forall a c h, length c = n -> length h = n -> (1 <= a <= n)%nat -> good c h -> good (low_centre a c h) (half_half a h) /\ good (high_centre a c h) (half_half a h).
Hypothesis agree : forall c h maxvls errmin divaxo, length c = n -> length h = n -> good c h -> bsrl f' symrl' n c h maxvls errmin divaxo = bsrl f symrl n c h maxvls errmin divaxo.

Lemma reached_good : forall r0 rs, length (r_centre r0) = n -> reached f symrl r0 rs -> good (r_centre r0) (r_half r0) -> forall r, In r rs -> good (r_centre r) (r_half r).
Proof.
  intros r0 rs L0 H G. induction H as [M|rs rs' H IH (r & rest & r1 & r2 & P & _ & M1 & M2 & C1 & H1 & C2 & H2 & P')].
  - now intros r [<-|[]].
  - assert (Ir : In r rs) by (eapply Permutation_in; [symmetry; exact P|now left]).
    destruct (reached_measured f symrl r0 rs H r Ir) as [(_ & A & B & _) D]. rewrite D, L0 in A, B.
    intros q Hq. apply (Permutation_in _ P') in Hq. destruct Hq as [<-|[<-|Hq]].
    + rewrite C1, H1. apply good_half; auto. congruence.
    + rewrite C2, H2. apply good_half; auto. congruence.
    + apply IH. eapply Permutation_in; [symmetry; exact P|now right].
Qed.
Lemma apply_cong : forall c h maxcls errmin divaxo st, length c = n -> length h = n -> good c h ->
  apply_rule f' symrl' n lenwrk c h maxcls errmin divaxo st = apply_rule f symrl n lenwrk c h maxcls errmin divaxo st.
Proof. intros. unfold apply_rule. now rewrite agree. Qed.

Lemma divide_cong : forall maxpts eps r0 rs st c h, inv f symrl n lenwrk r0 rs st -> good (r_centre r0) (r_half r0) -> (sbrgns st + (2 * n + 3) + 2 <= lenwrk)%nat -> length c = n -> length h = n ->
  divide f' symrl' n lenwrk maxpts eps st (c, h) = divide f symrl n lenwrk maxpts eps st (c, h).
Proof.
  intros maxpts eps r0 rs st c0 h0 I G0 Fit Lc0 Lh0. destruct I as [Len Sub Fits Some_ Lst Ord Val Er Dim Cnt Way].
  destruct rs as [|r rest]; [cbn in Some_; lia|].
  assert (Gr : good (r_centre r) (r_half r)) by (apply (reached_good r0 (r :: rest) Dim Way G0); now left).
  assert (Mr : measured f symrl r /\ length (r_centre r) = n) by (destruct (reached_measured f symrl _ _ Way r) as [A B]; [now left|]; split; [exact A|congruence]).
  destruct Mr as [Mr Lrc]. assert (Lrh : length (r_half r) = n) by (destruct Mr as (_ & A & _); congruence).
  assert (Ax : (1 <= r_axis r <= n)%nat) by (destruct Mr as (_ & _ & A & _); rewrite Lrc in A; exact A).
  assert (H0 : holds n (w st) 0 r) by (apply Lst; [discriminate|reflexivity]).
  set (k := length (r :: rest)) in *.
  unfold divide. cbv zeta.
  assert (LW : (1 <= lenwrk)%nat) by lia.
  rewrite (rs1_cell' _ _ _ LW Er).
  assert (V0 := holds_err _ _ _ _ H0). replace ((0 + 1) * (2 * n + 3))%nat with (2 * n + 3)%nat in V0 by lia. rewrite V0. clear V0.
  destruct (wr1_cell' (w st) lenwrk (Some (total r_err (r :: rest) - r_err r))) as (w1 & -> & L1 & C1); [lia|].
  assert (Lst1 : listed n w1 (r :: rest) None).
  { apply (listed_other n n_pos (w st)); [|exact Lst]. intros j Hj. fold k in Hj. rewrite C1. destruct (Nat.eqb_spec j (lenwrk - 1)); [lia|reflexivity]. }
  assert (H1 : holds n w1 0 r) by (apply Lst1; [discriminate|reflexivity]).
  assert (V1 := holds_val _ _ _ _ H1). replace ((0 + 1) * (2 * n + 3))%nat with (2 * n + 3)%nat in V1 by lia. rewrite V1. clear V1.
  assert (V1 := holds_axis _ _ _ _ H1). replace ((0 + 1) * (2 * n + 3))%nat with (2 * n + 3)%nat in V1 by lia. rewrite V1. clear V1.
  assert (V1 := load_ok n 0 r w1 c0 h0 H1 Lrc Lrh Lc0 Lh0). replace ((0 + 1) * (2 * n + 3))%nat with (2 * n + 3)%nat in V1 by lia. rewrite V1. clear V1.
  rewrite (to_int_INR n n_pos). cbn [fst snd].
  destruct (halving n n_pos (r_axis r) (r_centre r) (r_half r)) as (E1 & E2 & E3); [lia|congruence|].
  rewrite rd1_comp by lia. rewrite E1. rewrite (rd1_comp (r_centre r)) by lia.
  assert (LH : length (half_half (r_axis r) (r_half r)) = n) by (unfold half_half; rewrite along_len; exact Lrh).
  assert (LC : length (low_centre (r_axis r) (r_centre r) (r_half r)) = n) by (unfold low_centre; rewrite along_len; exact Lrc).
  assert (LC2 : length (high_centre (r_axis r) (r_centre r) (r_half r)) = n) by (unfold high_centre; rewrite along_len; exact Lrc).
  destruct (good_half (r_axis r) (r_centre r) (r_half r) Lrc Lrh Ax Gr) as [GL GU].
  rewrite rd1_comp by lia. rewrite E2. rewrite apply_cong by assumption.
  match goal with |- (let! r0 := ?m in _) = _ => destruct m as [[b1 s2]|e] end; [|reflexivity]. cbn [fst snd].
  match goal with |- (let! r0 := ?m in _) = _ => destruct m as [[p1 w2]|e] end; [|reflexivity]. cbn [fst snd].
  match goal with |- (let! r0 := ?m in _) = _ => destruct m as [w3|e] end; [|reflexivity].
  rewrite rd1_comp by lia. rewrite E3. rewrite apply_cong by assumption. reflexivity.
Qed.

Lemma refine_cong : forall fuel minpts maxpts eps r0 rs st c h, inv f symrl n lenwrk r0 rs st -> good (r_centre r0) (r_half r0) -> length c = n -> length h = n ->
  refine f' symrl' fuel n lenwrk minpts maxpts eps st (c, h) = refine f symrl fuel n lenwrk minpts maxpts eps st (c, h).
Proof.
  induction fuel as [|fuel IH]; intros minpts maxpts eps r0 rs st c h I G Lc Lh; [reflexivity|].
  cbn [refine]. destruct (check_ok f symrl n lenwrk n_pos minpts maxpts eps r0 rs st I) as (e & i & st' & -> & I' & Re & Fu & Hi & Hs & _).
  destruct (Nat.ltb_spec i 3) as [H3|H3]; [reflexivity|].
  destruct Hi as [Hi|[_ Hi]]; [lia|].
  assert (Hi' : (sbrgns st' + (2 * n + 3) + 2 <= lenwrk)%nat) by (rewrite (i_sub _ _ _ _ _ _ _ I'), <- (i_sub _ _ _ _ _ _ _ I); exact Hi).
  rewrite (divide_cong maxpts eps r0 rs st' c h I' G Hi' Lc Lh).
  assert (D := divide_ok f symrl n lenwrk n_pos maxpts eps r0 rs st' c h I' Hi' Lc Lh).
  destruct (divide f symrl n lenwrk maxpts eps st' (c, h)) as [[st2 [c2 h2]]|e0]; [|reflexivity]. cbn [okor fst snd] in *.
  destruct D as (L1 & L2 & rs2 & Lr & I3). now apply (IH _ _ _ r0 rs2).
Qed.
End Cong.

Lemma fortran_cong : forall f f' symrl symrl' (good : list R -> list R -> Prop) a b minpts maxpts eps lenwrk, (2 <= length a <= 20)%nat -> length b = length a -> (2 * length a + 3 + 2 <= lenwrk)%nat ->
  (forall x c h, length c = length a -> length h = length a -> (1 <= x <= length a)%nat -> good c h -> good (low_centre x c h) (half_half x h) /\ good (high_centre x c h) (half_half x h)) ->
  (forall c h maxvls errmin divaxo, length c = length a -> length h = length a -> good c h -> bsrl f' symrl' (length a) c h maxvls errmin divaxo = bsrl f symrl (length a) c h maxvls errmin divaxo) ->
  good (centre_of a b) (half_of a b) ->
  fortran f' symrl' a b minpts maxpts eps lenwrk = fortran f symrl a b minpts maxpts eps lenwrk.
Proof.
  intros f f' symrl symrl' good a b minpts maxpts eps lenwrk Hn Lb HL GH AG G. unfold fortran.
  replace (length a <? 2)%nat with false by (symmetry; apply Nat.ltb_ge; lia). replace (20 <? length a)%nat with false by (symmetry; apply Nat.ltb_ge; lia). cbn [orb].
  destruct (maxpts <? minpts)%Z; [reflexivity|]. destruct (minpts <? 0)%Z; [reflexivity|].
  rewrite whole_is. destruct (box_len a b Lb) as [Lc Lh].
  set (mc := Z.min _ _).
  destruct (wr1_cell' (repeat None lenwrk) lenwrk (Some 0)) as (w0 & -> & L0 & C0); [rewrite repeat_length; lia|]. rewrite repeat_length in L0.
  set (st0 := State w0 0 0 (2 * length a + 3)).
  assert (S1 := start_ok f symrl (length a) lenwrk ltac:(lia) (centre_of a b) (half_of a b) mc st0 Lc Lh HL L0).
  assert (C0' : cell (w st0) (lenwrk - 1) = Some (Some 0)) by (cbn [w st0]; rewrite C0, Nat.eqb_refl; reflexivity).
  specialize (S1 C0' eq_refl eq_refl eq_refl).
  rewrite (apply_cong f f' symrl symrl' (length a) lenwrk good AG) by assumption.
  destruct (apply_rule f symrl (length a) lenwrk (centre_of a b) (half_of a b) mc 0 0 st0) as [[bb st]|e]; [|reflexivity]. cbn [fst snd] in *.
  destruct (move_up (S (sbrgns st)) (2 * length a + 3) (b_errest bb) (2 * length a + 3) (w st)) as [[p w1]|e]; [|reflexivity]. cbn [fst snd] in *.
  destruct (store (length a) p bb (centre_of a b) (half_of a b) w1) as [w2|e]; [|reflexivity].
  cbn [okor] in S1. destruct S1 as (r0 & Ec & Eh & I & _).
  rewrite (refine_cong f f' symrl symrl' (length a) lenwrk ltac:(lia) good GH AG (S lenwrk) minpts maxpts eps r0 [r0] _ (centre_of a b) (half_of a b) I); [reflexivity| |exact Lc|exact Lh].
  now rewrite Ec, Eh.
Qed.
Lemma adapt_cong : forall f f' symrl symrl' (good : list R -> list R -> Prop) a b eps maxfac wrkfac, (2 <= length a <= 20)%nat -> length b = length a ->
  (forall x c h, length c = length a -> length h = length a -> (1 <= x <= length a)%nat -> good c h -> good (low_centre x c h) (half_half x h) /\ good (high_centre x c h) (half_half x h)) ->
  (forall c h maxvls errmin divaxo, length c = length a -> length h = length a -> good c h -> bsrl f' symrl' (length a) c h maxvls errmin divaxo = bsrl f symrl (length a) c h maxvls errmin divaxo) ->
  good (centre_of a b) (half_of a b) ->
  adapt f' symrl' a b eps maxfac wrkfac = adapt f symrl a b eps maxfac wrkfac.
Proof.
  intros f f' symrl symrl' good a b eps maxfac wrkfac Hn Lb GH AG G. unfold adapt, adapt_sizes. rewrite Lb, Nat.eqb_refl. cbn [negb].
  assert (LK := lenwrk_is (length a) (proj1 Hn)). cbv zeta in LK.
  rewrite (fortran_cong f f' symrl symrl' good) by (assumption || lia). reflexivity.
Qed.
