(** SYMRL: the values and the number of evaluations *)

From Coq Require Import List Bool Arith ZArith Reals Permutation Lra Lia.
From Verif Require Import Exn Instances CountSpec McModel McLemmas5 BaModel BaLemmas ObsModel AdModel AdLemmas AdLemmas2 SyModel SyLemmas SyLemmas2 SyLemmas3 SyLemmas4 SyLemmas5 SyLemmas6 SyLemmas7 SyLemmas8.
Import ListNotations.
Open Scope R_scope.

(** The weight of a partition added at order d, and before it *)
Definition W (m : list nat) (d : nat) : R := conv (map (fun j k => wt j (j + k)%nat) m) (d - list_sum m).
Definition acc (m : list nat) (d : nat) : R := sumR (map (W m) (seq (list_sum m) (d - list_sum m))).
Lemma acc_S : forall m d, (list_sum m <= d)%nat -> acc m (S d) = acc m d + W m d.
Proof. intros m d H. unfold acc. replace (S d - list_sum m)%nat with (S (d - list_sum m)) by lia. rewrite seq_S, map_app, sumR_app. unfold sumR at 2. cbn [map fold_right]. replace (list_sum m + (d - list_sum m))%nat with d by lia. ring. Qed.
Lemma acc_0 : forall m, acc m (list_sum m) = 0.
Proof. intros m. unfold acc. now rewrite Nat.sub_diag. Qed.

Definition cnt (m : list nat) : Z := Z.of_nat (length (permsof m) * pow2 (mask m)).
(** The evaluations for a partition at order d *)
Definition ev (d : nat) (m : list nat) : Z := if Req_EM_T (acc m d) 0 then if Req_EM_T (W m d) 0 then 0%Z else cnt m else 0%Z.
Definition sumZ (l : list Z) : Z := fold_right Z.add 0%Z l.

Lemma sumZ_app : forall a b, sumZ (a ++ b) = (sumZ a + sumZ b)%Z.
Proof. induction a as [|x a IH]; intros b; [reflexivity|]. cbn [app]. unfold sumZ in *. cbn [fold_right]. rewrite IH. lia. Qed.
Lemma rs1_nth : forall l i v, nth (i - 1) l None = Some v -> (1 <= i <= length l)%nat -> rs1 l i = Ok v.
Proof. intros l [|i] v H Hi; [lia|]. cbn [rs1]. unfold rds, rd. rewrite Nat.sub_succ, Nat.sub_0_r in H. rewrite (nth_error_nth' l None) by lia. now rewrite H. Qed.

Section Sym.
Variables (f : list R -> res R) (F : list R -> R) (s : nat) (center h : list R).
Hypothesis f_is : forall x, length x = s -> f x = Ok (F x).
Hypothesis c_len : length center = s.
Hypothesis h_len : length h = s.
Hypothesis h_pos : forall a, In a h -> 0 < a.
Hypothesis s_ok : (1 <= s <= 20)%nat.

Definition Psi (m : list nat) : R := sumR (map (full F center h) (permsof m)).

Definition good (st : sym) (k : nat) (m : list nat) (d : nat) : Prop :=
  nth k (y_weghts st) None = Some (acc m d) /\ exists v, nth k (y_fulsms st) None = Some v /\ (acc m d <> 0 -> v = Psi m).
Definition inv (d i : nat) (st : sym) : Prop :=
  length (y_weghts st) = 200%nat /\ length (y_fulsms st) = 200%nat /\ y_h st = h /\
  forall k m, nth_error (upto_sum s 11) k = Some m -> let d' := if Nat.ltb k i then S d else d in (list_sum m < d')%nat -> good st k m d'.

Lemma part_ok : forall maxord prd d, (maxord <= 12)%nat -> (d < maxord)%nat -> holds prd maxord wt ->
  forall ls pre, upto_sum s d = pre ++ ls -> ls <> [] -> forall fuel intval st, (length ls <= fuel)%nat -> inv d (length pre) st ->
  exists st', sym_parts f s center fuel maxord prd d (length pre + 1) (hd [] ls) (list_sum (hd [] ls)) intval st =
      Ok (intval + sumR (map (fun m => W m d * Psi m) ls), st') /\
    inv d (length (upto_sum s d)) st' /\ y_intvls st' = y_intvls st /\ y_intcls st' = (y_intcls st + sumZ (map (ev d) ls))%Z.
Proof.
  intros maxord prd d MO HD HP. induction ls as [|m ls IH]; intros pre E NE fuel intval st Hf I; [congruence|]. clear NE.
  destruct fuel as [|fuel]; cbn [length] in Hf; [lia|]. cbn [hd sym_parts].
  destruct (upto_pre s d 11 ltac:(lia)) as [rest ER].
  assert (L11 := parts_few s s_ok). assert (LP : (length pre < length (upto_sum s 11))%nat) by (rewrite ER, E, !app_length; cbn [length]; lia).
  assert (NM : nth_error (upto_sum s 11) (length pre) = Some m) by (rewrite ER, E, <- app_assoc, nth_error_app2, Nat.sub_diag by lia; reflexivity).
  assert (IM : In m (upto_sum s d)) by (rewrite E; apply in_or_app; right; now left). apply upto_in in IM. destruct IM as (ML & MD & MS).
  replace (Nat.ltb 200 (length pre + 1)) with false by (symmetry; apply Nat.ltb_ge; lia).
  destruct I as (I1 & I2 & I3 & I4).
  (* the entries at the start *)
  assert (B : exists w0 f0 v0, (if Nat.eqb d (list_sum m) then wr1 (y_weghts st) (length pre + 1) (Some 0) else Ok (y_weghts st)) = Ok w0 /\
    (if Nat.eqb d (list_sum m) then wr1 (y_fulsms st) (length pre + 1) (Some 0) else Ok (y_fulsms st)) = Ok f0 /\ length w0 = 200%nat /\ length f0 = 200%nat /\
    (forall k, k <> length pre -> nth k w0 None = nth k (y_weghts st) None) /\ (forall k, k <> length pre -> nth k f0 None = nth k (y_fulsms st) None) /\
    nth (length pre) w0 None = Some (acc m d) /\ nth (length pre) f0 None = Some v0 /\ (acc m d <> 0 -> v0 = Psi m)).
  { destruct (Nat.eqb_spec d (list_sum m)) as [ED|ND].
    - rewrite !wr1_upd by lia. replace (length pre + 1 - 1)%nat with (length pre) by lia.
      exists (upd (length pre) (Some 0) (y_weghts st)), (upd (length pre) (Some 0) (y_fulsms st)), 0. split; [reflexivity|]. split; [reflexivity|]. rewrite !upd_len by lia. split; [exact I1|]. split; [exact I2|].
      split; [intros k Hk; rewrite nth_upd' by lia; now rewrite (proj2 (Nat.eqb_neq _ _) Hk)|]. split; [intros k Hk; rewrite nth_upd' by lia; now rewrite (proj2 (Nat.eqb_neq _ _) Hk)|].
      rewrite !nth_upd' by lia. rewrite Nat.eqb_refl. rewrite ED, acc_0. split; [reflexivity|]. split; [reflexivity|]. congruence.
    - assert (G := I4 _ _ NM). cbv zeta in G. rewrite Nat.ltb_irrefl in G. destruct (G ltac:(lia)) as (G1 & v & G2 & G3).
      exists (y_weghts st), (y_fulsms st), v. repeat split; auto. }
  destruct B as (w0 & f0 & v0 & -> & -> & LW & LF & KW & KF & AW & AF & AP).
  rewrite (wht_is s d maxord m prd wt) by (assumption || lia). fold (W m d).
  rewrite (rs1_nth w0 (length pre + 1) (acc m d)) by (try lia; now replace (length pre + 1 - 1)%nat with (length pre) by lia).
  (* the sum *)
  assert (B : exists f1 v1, (if Reqb (acc m d) 0 && negb (Reqb (W m d) 0)
       then let! r := flsm f s center (y_h st) m maxord in
            let '(v, sumcls, h0) := r in let! fulsms := wr1 f0 (length pre + 1) (Some v) in Ok (fulsms, sumcls, h0)
       else Ok (f0, 0%Z, y_h st)) = Ok (f1, ev d m, h) /\ length f1 = 200%nat /\ (forall k, k <> length pre -> nth k f1 None = nth k f0 None) /\ nth (length pre) f1 None = Some v1 /\
       (acc m d <> 0 \/ W m d <> 0 -> v1 = Psi m)).
  { unfold ev. destruct (Req_EM_T (acc m d) 0) as [EA|NA].
    - rewrite (proj2 (Reqb_spec _ _) EA). destruct (Req_EM_T (W m d) 0) as [EW|NW].
      + rewrite (proj2 (Reqb_spec _ _) EW). cbn [negb andb]. rewrite I3. exists f0, v0. repeat split; auto. intros [C|C]; contradiction.
      + rewrite (proj2 (Reqb_false _ _) NW). cbn [negb andb]. rewrite I3. rewrite (flsm_is f F s center h f_is c_len h_len h_pos m maxord (permsof m)); try assumption; [|lia| |apply permsof_all; exact MD].
        * rewrite wr1_upd by lia. replace (length pre + 1 - 1)%nat with (length pre) by lia. exists (upd (length pre) (Some (Psi m)) f0), (Psi m). split; [reflexivity|]. split; [now rewrite upd_len by lia|].
          split; [intros k Hk; rewrite nth_upd' by lia; now rewrite (proj2 (Nat.eqb_neq _ _) Hk)|]. split; [rewrite nth_upd' by lia; now rewrite Nat.eqb_refl|auto].
        * intros j Hj. enough (j <= list_sum m)%nat by lia. clear - Hj. induction m as [|a m IH]; [destruct Hj|]. cbn [list_sum fold_right]. destruct Hj as [->|Hj]; [lia|]. specialize (IH Hj). unfold list_sum in IH. lia.
    - rewrite (proj2 (Reqb_false _ _) NA). cbn [andb]. rewrite I3. exists f0, v0. repeat split; auto. }
  destruct B as (f1 & v1 & -> & LF1 & KF1 & AF1 & AP1).
  rewrite (rs1_nth f1 (length pre + 1) v1) by (try lia; now replace (length pre + 1 - 1)%nat with (length pre) by lia).
  rewrite wr1_upd by lia. replace (length pre + 1 - 1)%nat with (length pre) by lia. cbv zeta.
  set (st1 := Sym _ _ _ _ _).
  assert (I' : inv d (length (pre ++ [m])) st1).
  { unfold st1. split; [cbn; now rewrite upd_len by lia|]. split; [exact LF1|]. split; [reflexivity|]. intros k m' Nk. cbv zeta. rewrite app_length. cbn [length]. intros Hs. unfold good. cbn [y_weghts y_fulsms].
    destruct (Nat.eq_dec k (length pre)) as [->|NK].
    - rewrite NM in Nk. injection Nk as <-. replace (Nat.ltb (length pre) (length pre + 1)) with true in * by (symmetry; apply Nat.ltb_lt; lia). rewrite nth_upd' by lia. rewrite Nat.eqb_refl, acc_S by exact MS.
      split; [reflexivity|]. exists v1. split; [exact AF1|]. intros C. apply AP1. destruct (Req_dec (acc m d) 0); [right; lra|left; assumption].
    - assert (TE : Nat.ltb k (length pre + 1) = Nat.ltb k (length pre)) by (destruct (Nat.ltb_spec k (length pre + 1)), (Nat.ltb_spec k (length pre)); (reflexivity || lia)). rewrite TE in *.
      specialize (I4 _ _ Nk). cbv zeta in I4. specialize (I4 Hs). destruct I4 as (G1 & v & G2 & G3). rewrite nth_upd' by lia. rewrite (proj2 (Nat.eqb_neq _ _) NK), KW, KF1, KF by exact NK. split; [exact G1|]. exists v. auto. }
  assert (VI : intval + W m d * v1 = intval + W m d * Psi m) by (destruct (Req_dec (W m d) 0) as [Q|Q]; [rewrite Q; ring|rewrite (AP1 (or_intror Q)); reflexivity]).
  rewrite VI.
  (* the next partition *)
  assert (FO := parts_follow s d s_ok ltac:(lia)). rewrite E in FO.
  assert (FN : forall l1 l2 e, follows s (l1 ++ l2) e = true -> follows s l2 e = true).
  { clear. induction l1 as [|x l1 IH]; intros l2 e H; [exact H|]. cbn [app follows] in H. apply andb_true_iff in H. destruct H as [_ H]. now apply IH. }
  apply FN in FO. cbn [follows] in FO. set (r := match ls with r :: _ => r | [] => S d :: repeat 0%nat (s - 1) end) in *. apply andb_true_iff in FO. destruct FO as [FO _]. apply andb_true_iff in FO. destruct FO as [FO1 FO2].
  apply Nat.eqb_eq in FO2. destruct (nxprt s m) as [q|] eqn:NX; [|discriminate]. apply veqb_spec in FO1. subst q.
  assert (LR : length r = s).
  { unfold r. destruct ls as [|q ls']; [cbn [length]; rewrite repeat_length; lia|]. assert (Q : In q (upto_sum s d)) by (rewrite E; apply in_or_app; right; right; now left). apply upto_in in Q. tauto. }
  rewrite (rd1_nth _ r 1 0%nat) by lia. replace (nth (1 - 1) r 0%nat) with (hd 0%nat r) by (destruct r; reflexivity). rewrite FO2.
  destruct ls as [|q ls'].
  - unfold r. assert (LS : list_sum (S d :: repeat 0%nat (s - 1)) = S d).
    { cbn [list_sum fold_right]. enough (Q : forall n, fold_right Nat.add 0%nat (repeat 0%nat n) = 0%nat) by (rewrite Q; lia). induction n; [reflexivity|exact IHn]. }
    rewrite LS. replace (Nat.leb (S d) d) with false by (symmetry; apply Nat.leb_gt; lia). exists st1. split; [unfold sumR; cbn [map fold_right]; do 2 f_equal; ring|]. rewrite E. split; [exact I'|]. split; [reflexivity|].
    unfold st1, sumZ. cbn. lia.
  - unfold r in *. assert (Q : In q (upto_sum s d)) by (rewrite E; apply in_or_app; right; right; now left). apply upto_in in Q. replace (Nat.leb (list_sum q) d) with true by (symmetry; apply Nat.leb_le; tauto).
    destruct (IH (pre ++ [m])) with (fuel := fuel) (intval := intval + W m d * Psi m) (st := st1) as (st' & E' & J1 & J2 & J3).
    + rewrite <- app_assoc. exact E.
    + discriminate.
    + lia.
    + exact I'.
    + cbn [hd] in E'. rewrite app_length in E'. cbn [length] in E'. replace (length pre + 1 + 1)%nat with (S (length pre + 1)) in E' by lia. rewrite E'. exists st'. split; [|split; [exact J1|split; [rewrite J2; reflexivity|]]].
      * do 2 f_equal. unfold sumR. cbn [map fold_right]. ring.
      * rewrite J3. unfold st1, sumZ. cbn [y_intcls map fold_right]. lia.
Qed.

(** Order d *)
Definition term (d : nat) : R := sumR (map (fun m => W m d * Psi m) (upto_sum s d)).
Definition evs (d : nat) : Z := sumZ (map (ev d) (upto_sum s d)).
Definition have (d : nat) (st : sym) : Prop :=
  inv d 0 st /\ length (y_intvls st) = 20%nat /\ (forall o, (1 <= o <= d)%nat -> nth (o - 1) (y_intvls st) None = Some (sg (o - 1) term)) /\ y_intcls st = sumZ (map evs (seq 0 d)).

Lemma order_ok : forall maxord prd d st, (maxord <= 12)%nat -> (d < maxord)%nat -> holds prd maxord wt -> have d st ->
  exists st', sym_order f s center maxord prd d st = Ok st' /\ have (S d) st'.
Proof.
  intros maxord prd d st MO HD HP (I & L & V & C). unfold sym_order.
  assert (HDM : hd [] (upto_sum s d) = repeat 0%nat s).
  { destruct (upto_pre s 0 d ltac:(lia)) as [r ->]. assert (Q : upto_sum s 0 = [repeat 0%nat s]); [|now rewrite Q].
    assert (IN : forall m, In m (upto_sum s 0) <-> m = repeat 0%nat s).
    { intros m. rewrite upto_in. split.
      - intros (Lm & _ & Sm). clear - Lm Sm. revert s Lm. induction m as [|a m IH]; intros k Lm; cbn [length] in Lm; subst k; [reflexivity|]. cbn [list_sum fold_right] in Sm. fold (list_sum m) in Sm. cbn [repeat]. f_equal; [lia|]. apply IH; [lia|reflexivity].
      - intros ->. split; [apply repeat_length|]. split.
        + generalize s. intros n. induction n as [|n IHn]; [constructor|]. cbn [repeat]. apply desc_cons. split; [exact IHn|]. intros b Hb. apply repeat_spec in Hb. lia.
        + enough (Q : forall n, list_sum (repeat 0%nat n) = 0%nat) by (rewrite Q; lia). induction n; [reflexivity|exact IHn]. }
    assert (ND : NoDup (upto_sum s 0)) by (unfold upto_sum; cbn [seq flat_map]; rewrite app_nil_r; apply parts_all).
    destruct (upto_sum s 0) as [|a [|b l]].
    - exfalso. now apply (IN (repeat 0%nat s)).
    - f_equal. apply IN. now left.
    - exfalso. assert (a = repeat 0%nat s) by (apply IN; now left). assert (b = repeat 0%nat s) by (apply IN; right; now left). inversion ND; subst. apply H3. now left. }
  assert (NE : upto_sum s d <> []) by (intros Q; rewrite Q in HDM; cbn in HDM; destruct s; [lia|discriminate]).
  assert (LF : (length (upto_sum s d) <= 201)%nat) by (destruct (upto_pre s d 11 ltac:(lia)) as [r Er]; assert (Q := parts_few s s_ok); rewrite Er, app_length in Q; lia).
  destruct (part_ok maxord prd d MO HD HP (upto_sum s d) [] eq_refl NE 201 0 st LF I) as (st' & E & J1 & J2 & J3).
  rewrite HDM in E. cbn [length Nat.add] in E. replace (list_sum (repeat 0%nat s)) with 0%nat in E by (symmetry; generalize s; intros n; induction n; [reflexivity|exact IHn]).
  rewrite E, Rplus_0_l. fold (term d).
  assert (IV : (if Nat.eqb d 0 then Ok (term d) else let! v := rs1 (y_intvls st') d in Ok (v + term d)) = Ok (sg d term)).
  { destruct (Nat.eqb_spec d 0) as [->|N]; [reflexivity|]. rewrite J2, (rs1_nth _ d (sg (d - 1) term)) by (try (apply V); lia). destruct d as [|d]; [lia|]. rewrite sg_S. now replace (S d - 1)%nat with d by lia. }
  rewrite IV. rewrite J2, wr1_upd by lia. eexists. split; [reflexivity|]. destruct J1 as (J11 & J12 & J13 & J14). split; [|split; [|split]]; cbn [y_intvls y_intcls y_weghts y_fulsms y_h].
  - split; [exact J11|]. split; [exact J12|]. split; [exact J13|]. intros k m Nk. cbv zeta. intros Hs. cbn [Nat.ltb Nat.leb] in Hs.
    assert (K : (k < length (upto_sum s d))%nat).
    { destruct (upto_pre s d 11 ltac:(lia)) as [r Er]. rewrite Er in Nk. destruct (Nat.lt_ge_cases k (length (upto_sum s d))) as [|Q]; [assumption|]. exfalso. rewrite nth_error_app2 in Nk by exact Q. apply nth_error_In in Nk.
      assert (EP : upto_sum s 11 = upto_sum s d ++ flat_map (parts s) (seq (S d) (11 - d))) by (unfold upto_sum; replace 12%nat with (S d + (11 - d))%nat by lia; rewrite seq_app, flat_map_app; reflexivity).
      rewrite EP in Er. apply app_inv_head in Er. rewrite <- Er in Nk. apply in_flat_map in Nk. destruct Nk as (q & Hq & Hm). apply in_seq in Hq. apply parts_all in Hm. lia. }
    specialize (J14 _ _ Nk). cbv zeta in J14. rewrite (proj2 (Nat.ltb_lt _ _) K) in J14. exact (J14 Hs).
  - now rewrite upd_len by lia.
  - intros o Ho. rewrite nth_upd' by lia. destruct (Nat.eqb_spec (o - 1) (d + 1 - 1)) as [Q|Q]; [do 2 f_equal; lia|]. apply V. lia.
  - rewrite J3, C. rewrite seq_S, map_app. cbn [map Nat.add]. fold (evs d). rewrite sumZ_app. unfold sumZ. cbn [fold_right]. lia.
Qed.

Lemma symrl_ok : forall minord maxord st, (minord < maxord <= 12)%nat -> have minord st -> exists st', symrl f s center minord maxord st = Ok (Some st') /\ have maxord st'.
Proof.
  intros minord maxord st M H. unfold symrl. destruct (table_is maxord ltac:(lia)) as (prd & -> & HP).
  assert (H' : have minord (if Nat.eqb minord 0 then Sym (y_intvls st) 0 (y_weghts st) (y_fulsms st) (y_h st) else st)).
  { destruct (Nat.eqb_spec minord 0) as [->|]; [|exact H]. destruct H as (I & L & V & C). split; [exact I|]. split; [exact L|]. split; [exact V|]. reflexivity. }
  destruct (iter_up _ (fun d st => have d st) (maxord - minord) minord (sym_order f s center maxord prd) _ H') as (st' & E & P).
  - intros d st0 Hd Hh. apply (order_ok maxord prd d st0); [lia|lia|exact HP|exact Hh].
  - cbv zeta. rewrite E. exists st'. split; [reflexivity|]. now replace (minord + (maxord - minord))%nat with maxord in P by lia.
Qed.

Lemma have_0 : have 0 (Sym (repeat None 20) 0 (repeat None 200) (repeat None 200) h).
Proof.
  split; [|split; [reflexivity|split; [intros o Ho; lia|reflexivity]]]. split; [apply repeat_length|]. split; [apply repeat_length|]. split; [reflexivity|]. intros k m _. cbv zeta. cbn. lia.
Qed.
(** INTVLS(o) for the orders up to 12, and INTCLS after MAXORD = 4 or o *)
Lemma rule_is : forall o, (1 <= o <= 12)%nat -> rule f center h o = Ok (sg (o - 1) term, sumZ (map evs (seq 0 (Nat.max 4 o)))).
Proof.
  intros o Ho. unfold rule, sym_calls. rewrite c_len. destruct (symrl_ok 0 4 _ ltac:(lia) have_0) as (st & E & H). rewrite E.
  destruct (iter_up _ (fun m (r : option sym) => exists st, r = Some st /\ have (m - 1) st) (o - 4) 5 (fun maxord r => match r with Some st => symrl f s center (maxord - 1) maxord st | None => Ok None end) (Some st)) as (r & E2 & st' & -> & P).
  - exists st. split; [reflexivity|exact H].
  - intros i r Hi (st0 & -> & H0). destruct (symrl_ok (i - 1) i st0 ltac:(lia) H0) as (st1 & E1 & H1). exists (Some st1). split; [exact E1|]. exists st1. split; [reflexivity|]. now replace (S i - 1)%nat with i by lia.
  - rewrite E2. destruct P as (_ & L & V & C). replace (5 + (o - 4) - 1)%nat with (Nat.max 4 o) in * by lia. rewrite (rs1_nth _ o (sg (o - 1) term)) by (try (apply V); lia). now rewrite C.
Qed.
End Sym.
