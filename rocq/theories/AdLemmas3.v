(** BSRL and the loop of ADAPT *)

From Coq Require Import List Bool Arith ZArith Reals Permutation Lra Lia.
From Verif Require Import Exn Instances McModel McLemmas4 BaModel BaLemmas ObsModel ObsLemmas ObsLemmas2 AdModel AdSpec AdLemmas AdLemmas2.
Import ListNotations.
Open Scope R_scope.

Lemma iter_okor : forall S (P : nat -> S -> Prop) E n lo body s, P lo s ->
  (forall i s, (lo <= i < lo + n)%nat -> P i s -> okor E (body i s) (P (Datatypes.S i))) -> okor E (iter (seq lo n) body s) (P (lo + n)%nat).
Proof.
  intros S P E n. induction n as [|n IH]; intros lo body s H0 H; cbn [seq iter]; [cbn; now rewrite Nat.add_0_r|].
  apply okor_bind with (P (Datatypes.S lo)); [apply H; [lia|exact H0]|]. intros a Ha.
  replace (lo + Datatypes.S n)%nat with (Datatypes.S lo + n)%nat by lia. apply IH; [exact Ha|]. intros i t Hi. apply H. lia.
Qed.

(** Points *)
Lemma along_len : forall a t x, length (along a t x) = length x.
Proof. intros. unfold along. now rewrite map_length, seq_length. Qed.
Lemma nth_along : forall a t x k, (k < length x)%nat -> nth k (along a t x) 0 = nth k x 0 + (if Nat.eqb (S k) a then t else 0).
Proof.
  intros a t x k H. unfold along. rewrite (nth_indep _ 0 ((fun j => nth (j - 1) x 0 + (if Nat.eqb j a then t else 0)) 0%nat)) by now rewrite map_length, seq_length.
  rewrite (map_nth (fun j => nth (j - 1) x 0 + (if Nat.eqb j a then t else 0))), seq_nth by exact H. cbn [Nat.add]. now rewrite Nat.sub_succ, Nat.sub_0_r.
Qed.
Lemma comp_along : forall a b t x, (1 <= b <= length x)%nat -> comp b (along a t x) = comp b x + (if Nat.eqb b a then t else 0).
Proof. intros a b t x H. unfold comp. rewrite nth_along by lia. now replace (S (b - 1)) with b by lia. Qed.
Lemma rd1_comp : forall x a, (1 <= a <= length x)%nat -> rd1 x a = Ok (comp a x).
Proof. intros x [|a] H; [lia|]. cbn [rd1]. unfold comp. rewrite Nat.sub_succ, Nat.sub_0_r. apply rd_nth. lia. Qed.
Lemma wr1_along : forall x a v t, (1 <= a <= length x)%nat -> v = comp a x + t -> wr1 x a v = Ok (along a t x).
Proof.
  intros x a v t H ->. destruct a as [|a]; [lia|]. cbn [wr1]. rewrite wr_ok by lia. f_equal.
  apply (nth_ext _ _ 0 0); [rewrite upd_len, along_len; lia|]. intros k Hk. rewrite upd_len in Hk by lia.
  rewrite nth_upd' by lia. rewrite nth_along by exact Hk. unfold comp. rewrite Nat.sub_succ, Nat.sub_0_r. cbn [Nat.eqb].
  destruct (Nat.eqb_spec k a) as [->|N]; [reflexivity|]. now rewrite Rplus_0_r.
Qed.

Lemma rs1_cell' : forall w p v, (1 <= p)%nat -> cell w (p - 1) = Some (Some v) -> rs1 w p = Ok v.
Proof. intros w [|p] v H C; [lia|]. rewrite Nat.sub_succ, Nat.sub_0_r in C. now apply rs1_cell. Qed.
Lemma wr1_cell' : forall (w : list (option R)) p v, (1 <= p <= length w)%nat ->
  exists w', wr1 w p v = Ok w' /\ length w' = length w /\ forall q, cell w' q = if Nat.eqb q (p - 1) then Some v else cell w q.
Proof. intros w [|p] v H; [lia|]. rewrite Nat.sub_succ, Nat.sub_0_r. apply wr1_cell. lia. Qed.

Section Rule.
Variable f : list R -> res R.
Variable symrl : list R -> list R -> nat -> res (R * Z).
Definition raises (e : exn) : Prop := (exists x, f x = Err e) \/ (exists c h o, symrl c h o = Err e).

Lemma f_okor : forall x, okor raises (f x) (fun v => v = value (f x) 0).
Proof. intros x. destruct (f x) as [v|e] eqn:E; cbn; [reflexivity|]. left. now exists x. Qed.
Lemma symrl_okor : forall c h o, okor raises (symrl c h o) (fun v => symrl c h o = Ok v).
Proof. intros c h o. destruct (symrl c h o) as [v|e] eqn:E; cbn; [reflexivity|]. right. now exists c, h, o. Qed.

Definition used_order (c h : list R) (o : nat) (err val : R) (z : Z) : Prop :=
  exists q' q'' z' z'', symrl c h o = Ok (val, z) /\ symrl c h (o - 1)%nat = Ok (q', z') /\ symrl c h (o - 2)%nat = Ok (q'', z'') /\ err = estimate val q' q''.

Lemma orders_ok : forall c h maxvls errmin k o, okor raises (bsrl_orders symrl c h maxvls errmin o k)
  (fun r => exists o', (o <= o' <= o + k)%nat /\ used_order c h o' (fst (fst r)) (snd (fst r)) (snd r)).
Proof.
  intros c h maxvls errmin. induction k as [|k IH]; intros o; cbn [bsrl_orders].
  all: eapply okor_bind; [apply symrl_okor|intros [q z] H1].
  all: eapply okor_bind; [apply symrl_okor|intros [q' z'] H2].
  all: eapply okor_bind; [apply symrl_okor|intros [q'' z''] H3].
  all: cbn [fst snd].
  all: set (err := if Reqb (Rabs (q - q')) 0 then Rabs (q - q') else _).
  all: assert (X : err = estimate q q' q'') by (unfold err, estimate; destruct (Reqb (Rabs (q - q')) 0) eqn:E; [apply Reqb_spec in E; rewrite E; ring|reflexivity]).
  all: assert (D : used_order c h o err q z) by (exists q', q'', z', z''; auto).
  - assert (T : okor raises (Ok (err, q, z)) (fun r => exists o', (o <= o' <= o + 0)%nat /\ used_order c h o' (fst (fst r)) (snd (fst r)) (snd r))) by (cbn; exists o; split; [lia|exact D]).
    destruct (Rleb _ _); [exact T|]. destruct (maxvls <? 2 * z)%Z; [exact T|]. destruct (Rltb _ _); exact T.
  - assert (T : okor raises (Ok (err, q, z)) (fun r => exists o', (o <= o' <= o + S k)%nat /\ used_order c h o' (fst (fst r)) (snd (fst r)) (snd r))) by (cbn; exists o; split; [lia|exact D]).
    destruct (Rleb _ _); [exact T|]. destruct (maxvls <? 2 * z)%Z; [exact T|]. destruct (Rltb _ _); [exact T|].
    eapply okor_imp; [apply IH|]. intros r (o' & Ho & U). exists o'. split; [lia|exact U].
Qed.

Let F x := value (f x) 0.
Lemma fourth_nonneg : forall c h a, 0 <= fourth F c h a.
Proof. intros. unfold fourth. apply Rabs_pos. Qed.

Lemma axes_ok : forall c h n, length c = n -> length h = n -> (1 <= n)%nat ->
  okor raises (bsrl_axes f c h (F c) n)
    (fun d => (1 <= snd d <= n)%nat /\ fst d = fourth F c h (snd d) /\ forall a, (1 <= a <= n)%nat -> fourth F c h a <= fst d).
Proof.
  intros c h n Lc Lh Hn. unfold bsrl_axes.
  eapply okor_imp.
  - apply (iter_okor _ (fun i (d : R * nat) => ((i = 1)%nat /\ d = (-1, 0%nat)) \/
       ((1 <= snd d < i)%nat /\ fst d = fourth F c h (snd d) /\ forall a, (1 <= a < i)%nat -> fourth F c h a <= fst d)) raises n 1); [left; auto|].
    intros i d Hi H. rewrite (rd1_comp c) by lia. rewrite (rd1_comp h) by lia.
    rewrite (wr1_along c i _ (- (1 / 4) * comp i h)) by (lia || field).
    eapply okor_bind; [apply f_okor|intros p1 E1].
    rewrite (wr1_along c i _ (1 / 4 * comp i h)) by (lia || field).
    eapply okor_bind; [apply f_okor|intros p2 E2].
    rewrite (wr1_along c i _ (- (3 / 4) * comp i h)) by (lia || field).
    eapply okor_bind; [apply f_okor|intros p3 E3].
    rewrite (wr1_along c i _ (3 / 4 * comp i h)) by (lia || field).
    eapply okor_bind; [apply f_okor|intros p4 E4].
    set (dif := Rabs _).
    assert (X : dif = fourth F c h i).
    { unfold dif, fourth, F. rewrite <- E1, <- E2, <- E3, <- E4. f_equal. unfold value. field. }
    assert (N := fourth_nonneg c h i).
    destruct (Rltb dif (fst d)) eqn:Q.
    + apply Rltb_spec in Q. cbn. destruct H as [[_ ->]|(H1 & H2 & H3)]; [cbn [fst] in Q; lra|].
      right. split; [lia|]. split; [exact H2|]. intros a Ha. destruct (Nat.eq_dec a i) as [->|NE]; [lra|]. apply H3. lia.
    + apply Rltb_false in Q. cbn. right. split; [lia|]. split; [exact X|]. intros a Ha.
      destruct (Nat.eq_dec a i) as [->|NE]; [lra|]. destruct H as [[-> _]|(_ & _ & H3)]; [lia|]. apply Rle_trans with (fst d); [apply H3; lia|lra].
  - intros d [[H _]|(H1 & H2 & H3)]; [lia|]. split; [lia|]. split; [exact H2|]. intros a Ha. apply H3. lia.
Qed.

(** What BSRL gives *)
Definition region_of (b : basic) (c h : list R) : region := Region (b_errest b) (b_basest b) (b_divaxn b) c h.
Lemma bsrl_ok : forall n c h maxvls errmin divaxo, length c = n -> length h = n -> (1 <= n)%nat ->
  okor raises (bsrl f symrl n c h maxvls errmin divaxo)
    (fun b => measured f symrl (region_of b c h) /\
       exists o z, (4 <= o <= 12)%nat /\ used_order c h o (b_errest b) (b_basest b) z /\ b_funcls b = (z + 4 * Z.of_nat n)%Z).
Proof.
  intros n c h maxvls errmin divaxo Lc Lh Hn. unfold bsrl.
  eapply okor_bind; [apply orders_ok|]. intros r (o & Ho & U).
  eapply okor_bind; [apply f_okor|]. intros s Es. cbv beta in Es. change (s = F c) in Es. rewrite Es. clear s Es.
  eapply okor_bind; [now apply axes_ok|]. intros d (D1 & D2 & D3). cbn.
  split; [|exists o, (snd r); split; [lia|]; split; [exact U|reflexivity]].
  unfold measured, region_of. cbn [r_centre r_half r_val r_err r_axis b_errest b_basest b_divaxn]. rewrite Lc. fold F.
  split; [|split; [exact Lh|]].
  - destruct U as (q' & q'' & z' & z'' & U1 & U2 & U3 & U4). exists o, (snd (fst r)), q', q'', (snd r), z', z''. split; [lia|]. auto.
  - destruct (Reqb (F c) (F c + fst d / 2)) eqn:Q.
    + apply Reqb_spec in Q. assert (Z0 : fst d = 0) by lra.
      assert (0 <= divaxo mod n < n)%nat by (split; [lia|apply Nat.mod_upper_bound; lia]).
      split; [lia|]. intros a Ha. apply Rle_trans with (fst d); [now apply D3|]. rewrite Z0. apply fourth_nonneg.
    + split; [exact D1|]. intros a Ha. rewrite <- D2. now apply D3.
Qed.

(** Estimates are not negative *)
Lemma estimate_nonneg : forall q q' q'', 0 <= estimate q q' q''.
Proof.
  intros. unfold estimate. apply Rmult_le_pos; [apply Rabs_pos|]. apply Rle_trans with (1 / 10); [lra|apply Rmax_l].
Qed.
Lemma measured_err : forall r, measured f symrl r -> 0 <= r_err r.
Proof. intros r ((o & q & q' & q'' & z & z' & z'' & _ & _ & _ & _ & _ & ->) & _). apply estimate_nonneg. Qed.

(** Totals *)
Lemma total_perm : forall g rs rs', Permutation rs rs' -> total g rs = total g rs'.
Proof. intros g rs rs' H. unfold total. induction H; cbn [map fold_right]; try lra. Qed.
Lemma total_nonneg : forall g rs, (forall r, In r rs -> 0 <= g r) -> 0 <= total g rs.
Proof. intros g rs H. unfold total. induction rs as [|r rs IH]; cbn [map fold_right]; [lra|]. assert (0 <= g r) by (apply H; now left). assert (0 <= fold_right Rplus 0 (map g rs)) by (apply IH; intros q Hq; apply H; now right). lra. Qed.

(** Reached regions are measured, and of the same dimension *)
Lemma reached_measured : forall r0 rs, reached f symrl r0 rs -> forall r, In r rs -> measured f symrl r /\ length (r_centre r) = length (r_centre r0).
Proof.
  intros r0 rs H. induction H as [M|rs rs' H IH (r & rest & r1 & r2 & P & _ & M1 & M2 & C1 & _ & C2 & _ & P')].
  - intros r [<-|[]]. auto.
  - assert (IHr : length (r_centre r) = length (r_centre r0)) by (apply IH; eapply Permutation_in; [symmetry; exact P|now left]).
    intros q Hq. apply (Permutation_in _ P') in Hq. destruct Hq as [<-|[<-|Hq]].
    + split; [exact M1|]. rewrite C1. unfold low_centre. now rewrite along_len.
    + split; [exact M2|]. rewrite C2. unfold high_centre. now rewrite along_len.
    + apply IH. eapply Permutation_in; [symmetry; exact P|now right].
Qed.

(** The state of the loop *)
Variable n lenwrk : nat.
Hypothesis n_pos : (1 <= n)%nat.
Record inv (r0 : region) (rs : list region) (st : state) : Prop := Inv {
  i_len : length (w st) = lenwrk;
  i_sub : sbrgns st = (length rs * (2 * n + 3))%nat;
  i_fit : (length rs * (2 * n + 3) + 2 <= lenwrk)%nat;
  i_some : (1 <= length rs)%nat;
  i_list : listed n (w st) rs None;
  i_ord : ordered rs;
  i_val : finest st = total r_val rs;
  i_err : cell (w st) (lenwrk - 1) = Some (Some (total r_err rs));
  i_dim : length (r_centre r0) = n;
  i_cnt : forall lo hi, costs symrl lo hi -> ((2 * Z.of_nat (length rs) - 1) * (lo + 4 * Z.of_nat n) <= funcls st <= (2 * Z.of_nat (length rs) - 1) * (hi + 4 * Z.of_nat n))%Z;
  i_way : reached f symrl r0 rs }.

Lemma listed_other : forall wk wk' rs p, (forall k, (k < length rs * (2 * n + 3))%nat -> cell wk' k = cell wk k) -> listed n wk rs p -> listed n wk' rs p.
Proof.
  intros wk wk' rs p H L i r Hp Hr t Ht. rewrite H; [now apply L|]. assert (i < length rs)%nat by (apply nth_error_Some; congruence). nia.
Qed.
Lemma to_int_INR : forall k, Z.to_nat (to_int (INR k)) = k.
Proof.
  intros k. assert (H := to_int_floor (INR k) (pos_INR k)). rewrite INR_IZR_INZ in H at 2 3. destruct H as [H1 H2].
  apply le_IZR in H1. rewrite <- plus_IZR in H2. apply lt_IZR in H2. replace (to_int (INR k)) with (Z.of_nat k) by lia. apply Nat2Z.id.
Qed.

(** The rule and its sums *)
Lemma apply_ok : forall c h maxcls errmin divaxo st t, length c = n -> length h = n -> length (w st) = lenwrk -> (1 <= lenwrk)%nat -> cell (w st) (lenwrk - 1) = Some (Some t) ->
  okor raises (apply_rule f symrl n lenwrk c h maxcls errmin divaxo st)
    (fun p => measured f symrl (region_of (fst p) c h) /\ finest (snd p) = finest st + b_basest (fst p) /\ sbrgns (snd p) = sbrgns st /\
       length (w (snd p)) = lenwrk /\ cell (w (snd p)) (lenwrk - 1) = Some (Some (t + b_errest (fst p))) /\
       (forall k, k <> (lenwrk - 1)%nat -> cell (w (snd p)) k = cell (w st) k) /\
       exists o z, (4 <= o <= 12)%nat /\ used_order c h o (b_errest (fst p)) (b_basest (fst p)) z /\ funcls (snd p) = (funcls st + (z + 4 * Z.of_nat n))%Z).
Proof.
  intros c h maxcls errmin divaxo st t Lc Lh L L1 C. unfold apply_rule.
  eapply okor_bind; [now apply bsrl_ok|]. intros b (M & o & z & Ho & U & Fb).
  rewrite (rs1_cell' _ _ _ L1 C). destruct (wr1_cell' (w st) lenwrk (Some (t + b_errest b))) as (w' & -> & L' & C'); [lia|].
  cbn. split; [exact M|]. split; [reflexivity|]. split; [reflexivity|]. split; [congruence|].
  split; [rewrite C', Nat.eqb_refl; reflexivity|]. split; [intros k Hk; rewrite C'; destruct (Nat.eqb_spec k (lenwrk - 1)); [contradiction|reflexivity]|].
  exists o, z. split; [exact Ho|]. split; [exact U|]. now rewrite Fb.
Qed.

Lemma halving : forall a c h, (1 <= a <= length h)%nat -> length h = length c ->
  wr1 h a (comp a h * / 2) = Ok (half_half a h) /\
  wr1 c a (comp a c - comp a (half_half a h)) = Ok (low_centre a c h) /\
  wr1 (low_centre a c h) a (comp a (low_centre a c h) + 2 * comp a (half_half a h)) = Ok (high_centre a c h).
Proof.
  intros a c h Ha L.
  assert (X : comp a (half_half a h) = comp a h / 2) by (unfold half_half; rewrite comp_along, Nat.eqb_refl by lia; field).
  split; [|split].
  - unfold half_half. apply wr1_along; [lia|field].
  - unfold low_centre. apply wr1_along; [lia|]. rewrite X. ring.
  - assert (Y : comp a (low_centre a c h) = comp a c - comp a h / 2) by (unfold low_centre; rewrite comp_along, Nat.eqb_refl by lia; ring).
    assert (LL : length (low_centre a c h) = length c) by (unfold low_centre; apply along_len).
    rewrite (wr1_along (low_centre a c h) a _ (comp a h)) by (lia || (rewrite X, Y; field)).
    f_equal. unfold high_centre. apply (nth_ext _ _ 0 0); [rewrite !along_len; exact LL|]. rewrite along_len, LL. intros k Hk.
    rewrite nth_along by lia. unfold low_centre. rewrite !nth_along by lia. destruct (Nat.eqb (S k) a); lra.
Qed.

Lemma divide_ok : forall maxpts eps r0 rs st c h, inv r0 rs st -> (sbrgns st + (2 * n + 3) + 2 <= lenwrk)%nat -> length c = n -> length h = n ->
  okor raises (divide f symrl n lenwrk maxpts eps st (c, h))
    (fun p => length (fst (snd p)) = n /\ length (snd (snd p)) = n /\ exists rs', length rs' = S (length rs) /\ inv r0 rs' (fst p)).
Proof.
  intros maxpts eps r0 rs st c0 h0 I Fit Lc0 Lh0. destruct I as [Len Sub Fits Some_ Lst Ord Val Er Dim Cnt Way].
  destruct rs as [|r rest]; [cbn in Some_; lia|].
  assert (Mr : measured f symrl r /\ length (r_centre r) = n) by (destruct (reached_measured _ _ Way r) as [A B]; [now left|]; split; [exact A|congruence]).
  destruct Mr as [Mr Lrc]. assert (Lrh : length (r_half r) = n) by (destruct Mr as (_ & A & _); congruence).
  assert (Ax : (1 <= r_axis r <= n)%nat) by (destruct Mr as (_ & _ & A & _); rewrite Lrc in A; exact A).
  assert (H0 : holds n (w st) 0 r) by (apply Lst; [discriminate|reflexivity]).
  set (k := length (r :: rest)) in *.
  unfold divide. cbv zeta.
  assert (LW : (1 <= lenwrk)%nat) by lia.
  rewrite (rs1_cell' _ _ _ LW Er).
  assert (V0 := holds_err _ _ _ _ H0). replace ((0 + 1) * (2 * n + 3))%nat with (2 * n + 3)%nat in V0 by lia. rewrite V0. clear V0.
  destruct (wr1_cell' (w st) lenwrk (Some (total r_err (r :: rest) - r_err r))) as (w1 & -> & L1 & C1); [lia|].
  assert (Lst1 : listed n w1 (r :: rest) None).
  { apply (listed_other (w st)); [|exact Lst]. intros j Hj. fold k in Hj. rewrite C1. destruct (Nat.eqb_spec j (lenwrk - 1)); [lia|reflexivity]. }
  assert (H1 : holds n w1 0 r) by (apply Lst1; [discriminate|reflexivity]).
  assert (V1 := holds_val _ _ _ _ H1). replace ((0 + 1) * (2 * n + 3))%nat with (2 * n + 3)%nat in V1 by lia. rewrite V1. clear V1.
  assert (V1 := holds_axis _ _ _ _ H1). replace ((0 + 1) * (2 * n + 3))%nat with (2 * n + 3)%nat in V1 by lia. rewrite V1. clear V1.
  assert (V1 := load_ok n 0 r w1 c0 h0 H1 Lrc Lrh Lc0 Lh0). replace ((0 + 1) * (2 * n + 3))%nat with (2 * n + 3)%nat in V1 by lia. rewrite V1. clear V1.
  rewrite to_int_INR. cbn [fst snd].
  destruct (halving (r_axis r) (r_centre r) (r_half r)) as (E1 & E2 & E3); [lia|congruence|].
  rewrite rd1_comp by lia. rewrite E1. rewrite (rd1_comp (r_centre r)) by lia.
  assert (LH : length (half_half (r_axis r) (r_half r)) = n) by (unfold half_half; rewrite along_len; exact Lrh).
  assert (LC : length (low_centre (r_axis r) (r_centre r) (r_half r)) = n) by (unfold low_centre; rewrite along_len; exact Lrc).
  assert (LC2 : length (high_centre (r_axis r) (r_centre r) (r_half r)) = n) by (unfold high_centre; rewrite along_len; exact Lrc).
  rewrite rd1_comp by lia. rewrite E2.
  match goal with |- okor _ (let! r0 := apply_rule _ _ _ _ ?c0 ?h0 ?m0 ?e0 ?a0 ?s0 in _) _ => set (mc := m0); set (em := e0); set (st1 := s0) end.
  eapply okor_bind.
  { apply (apply_ok _ _ mc em _ st1 (total r_err (r :: rest) - r_err r)); [exact LC|exact LH|cbn; lia|lia|]. cbn [w st1]. rewrite C1. now rewrite Nat.eqb_refl. }
  intros [b1 s2] (M1 & V2 & S2 & L2 & C2 & O2 & o1 & z1 & Ho1 & U1 & F1). cbn [fst snd] in *.
  assert (S2k : sbrgns s2 = (k * (2 * n + 3))%nat) by (rewrite S2; exact Sub).
  rewrite S2k.
  (* first half *)
  assert (Lst2 : listed n (w s2) (r :: rest) (Some (1 - 1)%nat)).
  { intros i q _ Hq. apply (listed_other w1 (w s2) (r :: rest) None); [|exact Lst1|discriminate|exact Hq].
    intros j Hj. fold k in Hj. rewrite O2 by lia. reflexivity. }
  destruct (down_ok (S (k * (2 * n + 3))) n (b_errest b1) (r :: rest) 1 (w s2)) as (out & Eo & Po); [fold k; lia|fold k; nia|fold k; lia|exact Lst2|now apply open_top|intros X; lia|].
  fold k in Eo. replace (1 * (2 * n + 3))%nat with (2 * n + 3)%nat in Eo by lia. rewrite Eo.
  destruct (store_placed n (r :: rest) 1 (w s2) b1 (low_centre (r_axis r) (r_centre r) (r_half r)) (half_half (r_axis r) (r_half r)) out Po LC LH) as (w3 & rs3 & -> & L3 & K3 & Lst3 & T3 & P3 & Ord3); [fold k; lia|].
  fold k in K3, T3. cbn [Nat.sub upd] in P3. fold (region_of b1 (low_centre (r_axis r) (r_centre r) (r_half r)) (half_half (r_axis r) (r_half r))) in P3.
  set (r1 := region_of b1 _ _) in *. change (upd 0 r1 (r :: rest)) with (r1 :: rest) in P3.
  rewrite rd1_comp by lia. rewrite E3.
  match goal with |- okor _ (let! r0 := apply_rule _ _ _ _ ?c0 ?h0 ?m0 ?e0 ?a0 ?s0 in _) _ => set (st3 := s0) end.
  (* second half *)
  eapply okor_bind.
  { apply (apply_ok _ _ mc em _ st3 (total r_err (r :: rest) - r_err r + b_errest b1)); [exact LC2|exact LH|cbn; lia|lia|].
    cbn [w st3]. rewrite T3 by lia. exact C2. }
  intros [b2 s4] (M2 & V4 & S4 & L4 & C4 & O4 & o2 & z2 & Ho2 & U2 & F2). cbn [fst snd] in *.
  set (r2 := region_of b2 (high_centre (r_axis r) (r_centre r) (r_half r)) (half_half (r_axis r) (r_half r))) in *.
  assert (K4 : length (rs3 ++ [r2]) = S k) by (rewrite app_length, K3; cbn; lia).
  assert (S4k : sbrgns s4 = (S k * (2 * n + 3))%nat) by (rewrite S4; cbn [sbrgns st3]; lia).
  rewrite S4k.
  destruct (open_end rs3 r2 Ord3) as [G4 B4].
  assert (Lst4 : listed n (w s4) (rs3 ++ [r2]) (Some (S k - 1)%nat)).
  { intros i q Hi Hq. assert (i < S k)%nat by (rewrite <- K4; apply nth_error_Some; congruence). assert (Ni : i <> (S k - 1)%nat) by congruence. rewrite nth_error_app1 in Hq by lia.
    apply (listed_other w3 (w s4) rs3 None); [|exact Lst3|discriminate|exact Hq]. intros j Hj. rewrite O4 by lia. reflexivity. }
  rewrite K3 in G4, B4.
  destruct (up_ok (S (S k * (2 * n + 3))) n (b_errest b2) (rs3 ++ [r2]) (S k) (w s4)) as (out4 & Eo4 & Po4); [lia|nia|rewrite K4; cbn [w st3] in *; lia|exact Lst4|exact G4|apply B4|].
  rewrite Eo4.
  destruct (store_placed n (rs3 ++ [r2]) (S k) (w s4) b2 (high_centre (r_axis r) (r_centre r) (r_half r)) (half_half (r_axis r) (r_half r)) out4 Po4 LC2 LH) as (w5 & rs5 & -> & L5 & K5 & Lst5 & T5 & P5 & Ord5); [rewrite K4; lia|].
  fold (region_of b2 (high_centre (r_axis r) (r_centre r) (r_half r)) (half_half (r_axis r) (r_half r))) in P5. fold r2 in P5.
  unfold okor. cbn [fst snd]. split; [exact LC2|]. split; [exact LH|]. exists rs5. split; [rewrite K5; exact K4|].
  assert (PP : Permutation rs5 (r1 :: r2 :: rest)).
  { eapply Permutation_trans; [symmetry; exact P5|]. replace (upd (S k - 1) r2 (rs3 ++ [r2])) with (rs3 ++ [r2]).
    - eapply Permutation_trans; [apply Permutation_app_comm|]. cbn [app]. eapply Permutation_trans; [apply perm_skip; symmetry; exact P3|]. apply perm_swap.
    - symmetry. apply (nth_ext _ _ dreg dreg); [apply upd_len; lia|]. intros j Hj. rewrite nth_upd' by lia.
      destruct (Nat.eqb_spec j (S k - 1)) as [->|]; [|reflexivity]. rewrite app_nth2 by lia. rewrite K3. replace (S k - 1 - k)%nat with 0%nat by lia. reflexivity. }
  assert (VR1 : r_val r1 = b_basest b1 /\ r_err r1 = b_errest b1) by (split; reflexivity).
  assert (VR2 : r_val r2 = b_basest b2 /\ r_err r2 = b_errest b2) by (split; reflexivity).
  constructor; cbn [w finest sbrgns].
  - lia.
  - rewrite K5, K4. reflexivity.
  - lia.
  - lia.
  - exact Lst5.
  - exact Ord5.
  - rewrite (total_perm _ _ _ PP), V4. cbn [finest st3]. rewrite V2. cbn [finest st1]. rewrite Val. destruct VR1 as [<- _]. destruct VR2 as [<- _]. unfold total. cbn [map fold_right]. ring.
  - rewrite T5 by (rewrite K4; lia). rewrite C4. rewrite (total_perm _ _ _ PP). destruct VR1 as [_ <-]. destruct VR2 as [_ <-]. unfold total. cbn [map fold_right]. do 2 f_equal. ring.
  - exact Dim.
  - intros lo hi Co. cbn [funcls]. rewrite F2. cbn [funcls st3]. rewrite F1. cbn [funcls st1]. specialize (Cnt lo hi Co).
    destruct U1 as (q1 & q1' & y1 & y1' & U1 & _). destruct U2 as (q2 & q2' & y2 & y2' & U2 & _).
    assert (Z1 := Co _ _ _ _ _ Ho1 U1). assert (Z2 := Co _ _ _ _ _ Ho2 U2). rewrite K5, K4. lia.
  - apply reached_step with (r :: rest); [exact Way|]. exists r, rest, r1, r2. split; [apply Permutation_refl|]. split.
    + intros q Hq. destruct (In_nth _ _ dreg Hq) as (j & Hj & <-). fold k in Hj. generalize (top (r :: rest) (S j) Ord). unfold er. rewrite Nat.sub_succ, Nat.sub_0_r. intros T. apply T. fold k. lia.
    + split; [exact M1|]. split; [exact M2|]. repeat (split; [reflexivity|]). exact PP.
Qed.
End Rule.
