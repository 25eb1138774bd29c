(** The moments, the table of products, and divided differences *)

From Coq Require Import List Bool Arith ZArith Reals Permutation Lra Lia.
From Verif Require Import Exn Instances CountSpec McModel McLemmas5 BaModel BaLemmas ObsModel AdModel AdLemmas AdLemmas2 SyModel SyLemmas SyLemmas2 SyLemmas5 SyLemmas6 SyLemmas7.
Import ListNotations.
Open Scope R_scope.

Fixpoint nu (l i : nat) : R := match l with O => 2 / INR (i + i + 1) | S l' => nu l' i - gn l' ^ 2 * nu l' (i - 1) end.
Definition chop (v : R) : R := if Rltb (v ^ 2) ((momtol * 2) ^ 2) then 0 else v.
Fixpoint md (l : nat) : R := match l with O => 2 | S l' => chop (nu l' (S l') - gn l' ^ 2 * md l') end.

Lemma momtol_small : 0 < momtol < 1 / 10 ^ 10.
Proof. unfold momtol. split; [|apply Rmult_lt_reg_r with (2 ^ 53); [apply pow_lt; lra|rewrite Rmult_assoc, Rinv_l by (apply pow_nonzero; lra); lra]]. apply Rmult_lt_0_compat; [lra|apply Rinv_0_lt_compat, pow_lt; lra]. Qed.
Lemma md_0 : md 0 = 2.
Proof. reflexivity. Qed.
Lemma md_1 : md 1 = 2 / 3.
Proof.
  cbn [md nu]. rewrite gn_0. replace (INR (1 + 1 + 1)) with 3 by (cbn; lra). unfold chop. replace (Rltb _ _) with false; [field|]. symmetry. apply Rltb_false. assert (M := momtol_small). nra.
Qed.

Section Moments.
Variable maxord : nat.
Hypothesis mo : (1 <= maxord <= 12)%nat.

Definition rowed (l : nat) (m : list R) : Prop :=
  length m = maxord /\ (forall i, (i < l)%nat -> (i < maxord)%nat -> nth i m 0 = md i) /\ (forall i, (l <= i < maxord)%nat -> nth i m 0 = nu (l - 1) i).
Lemma row_ok : forall l m, (2 <= l <= maxord)%nat -> rowed (l - 1) m -> exists m', moments_row maxord l m = Ok m' /\ rowed l m'.
Proof.
  intros l m Hl (L & D & N). unfold moments_row. rewrite (rd1_nth _ m (l - 1) 0) by lia. rewrite (rd1_nth _ g_table (l - 1) 0) by (rewrite g_len; lia).
  cbv beta iota. replace (l - 1 - 1)%nat with (l - 2)%nat by lia. fold (gn (l - 2)). rewrite (D (l - 2)%nat) by lia.
  destruct (iter_up _ (fun i (st : list R * R) => let (m', v) := st in length m' = maxord /\ (forall k, (k < l - 1)%nat -> nth k m' 0 = md k) /\
      (forall k, (l - 1 <= k < i - 1)%nat -> nth k m' 0 = if Nat.eqb k (l - 1) then nu (l - 2) (l - 1) - gn (l - 2) ^ 2 * md (l - 2) else nu (l - 1) k) /\
      (forall k, (i - 1 <= k < maxord)%nat -> nth k m' 0 = nu (l - 2) k) /\ v = if Nat.eqb i l then md (l - 2) else nu (l - 2) (i - 2))
    (maxord + 1 - l) l (fun i st =>
      let (moment, intmpa) := (st : list R * R) in
      let! intmpb := rd1 moment i in
      let! moment := wr1 moment i (intmpb - gn (l - 2) ^ 2 * intmpa) in
      Ok (moment, intmpb)) (m, md (l - 2))) as (st & E & P).
  - split; [exact L|]. split; [intros k Hk; apply D; lia|]. split; [intros; lia|]. split; [intros k Hk; rewrite N by lia; f_equal; lia|]. now rewrite Nat.eqb_refl.
  - intros i [m' v] Hi (L' & P1 & P2 & P3 & P4). rewrite (rd1_nth _ m' i 0) by lia. rewrite wr1_upd by lia. eexists. split; [reflexivity|]. cbv beta iota.
    rewrite (P3 (i - 1)%nat) by lia. split; [now rewrite upd_len by lia|]. split; [|split; [|split]].
    + intros k Hk. rewrite nth_upd' by lia. destruct (Nat.eqb_spec k (i - 1)); [lia|]. now apply P1.
    + intros k Hk. rewrite nth_upd' by lia. destruct (Nat.eqb_spec k (i - 1)) as [->|NE].
      * rewrite P4. destruct (Nat.eqb_spec i l) as [EL|NL]; destruct (Nat.eqb_spec (i - 1) (l - 1)) as [E2|E2]; try lia; [now rewrite E2|].
        replace (l - 1)%nat with (S (l - 2)) by lia. cbn [nu]. now replace (i - 1 - 1)%nat with (i - 2)%nat by lia.
      * apply P2. lia.
    + intros k Hk. rewrite nth_upd' by lia. destruct (Nat.eqb_spec k (i - 1)); [lia|]. apply P3. lia.
    + destruct (Nat.eqb_spec (S i) l); [lia|]. replace (S i - 2)%nat with (i - 1)%nat by lia. reflexivity.
  - rewrite E. destruct st as [m' v]. destruct P as (L' & P1 & P2 & P3 & _). cbn [fst]. rewrite (rd1_nth _ m' l 0) by lia. rewrite (rd1_nth _ m' 1 0) by lia.
    replace (nth (1 - 1) m' 0) with 2 by (symmetry; apply (P1 0%nat); lia).
    assert (V : nth (l - 1) m' 0 = nu (l - 2) (l - 1) - gn (l - 2) ^ 2 * md (l - 2)) by (rewrite P2 by lia; now rewrite Nat.eqb_refl).
    assert (ML : md (l - 1) = chop (nth (l - 1) m' 0)).
    { rewrite V. replace (l - 1)%nat with (S (l - 2)) by lia. reflexivity. }
    assert (Fin : forall m2, length m2 = maxord -> nth (l - 1) m2 0 = md (l - 1) -> (forall k, k <> (l - 1)%nat -> nth k m2 0 = nth k m' 0) -> rowed l m2).
    { intros m2 Q1 Q2 Q3. split; [exact Q1|]. split.
      - intros i Hi Hi'. destruct (Nat.eq_dec i (l - 1)) as [->|NE]; [exact Q2|]. rewrite Q3 by exact NE. apply P1. lia.
      - intros i Hi. rewrite Q3 by lia. rewrite P2 by lia. destruct (Nat.eqb_spec i (l - 1)); [lia|reflexivity]. }
    unfold chop in ML. destruct (Rltb (nth (l - 1) m' 0 ^ 2) ((momtol * 2) ^ 2)).
    + rewrite wr1_upd by lia. eexists. split; [reflexivity|]. apply Fin; [now rewrite upd_len by lia| |].
      * rewrite nth_upd' by lia. rewrite Nat.eqb_refl. now rewrite ML.
      * intros k Hk. rewrite nth_upd' by lia. destruct (Nat.eqb_spec k (l - 1)); [lia|reflexivity].
    + eexists. split; [reflexivity|]. apply Fin; [exact L'|now rewrite ML|reflexivity].
Qed.
Lemma moments_is : moments maxord = Ok (map md (seq 0 maxord)).
Proof.
  unfold moments. destruct (iter_up _ (fun l m => rowed (l - 1) m) (maxord - 1) 2 (fun l moment => moments_row maxord l moment) (moments_start maxord)) as (m & E & L & D & _).
  - unfold moments_start. split; [now rewrite map_length, seq_length|]. assert (V : forall i, (i < maxord)%nat -> nth i (map (fun l => 2 / INR (l + l - 1)) (seq 1 maxord)) 0 = nu 0 i).
    { intros i Hi. rewrite (nth_indep _ 0 ((fun l => 2 / INR (l + l - 1)) 0%nat)) by (rewrite map_length, seq_length; lia). rewrite (map_nth (fun l => 2 / INR (l + l - 1))). rewrite seq_nth by lia. cbn [nu]. do 2 f_equal. lia. }
    split; [|intros i Hi; apply V; lia]. intros i Hi Hm. rewrite V by lia. replace i with 0%nat by lia. cbn. lra.
  - intros l m Hl H. destruct (row_ok l m ltac:(lia) H) as (m' & E & P). exists m'. split; [exact E|]. now replace (S l - 1)%nat with l by lia.
  - rewrite E. f_equal. apply (nth_ext _ _ 0 0); [now rewrite map_length, seq_length|]. intros i Hi. rewrite D by lia. rewrite (nth_indep _ 0 (md 0)) by (rewrite map_length, seq_length; lia). rewrite map_nth, seq_nth by lia. reflexivity.
Qed.
End Moments.

(** The generators are different *)
Definition g_num : list Z := [0; 7745966692414833; 9604912687080202; 4342437493468025; 9938319632127549; 8884592328722569; 6211029467372263; 2233866864289668; 13421773; 13421773; 5033165; 13421773]%Z.
Definition g_den : list Z := [1; 10 ^ 16; 10 ^ 16; 10 ^ 16; 10 ^ 16; 10 ^ 16; 10 ^ 16; 10 ^ 16; 2 ^ 27; 2 ^ 26; 2 ^ 24; 2 ^ 25]%Z.
Lemma gn_frac : forall j, (j < 12)%nat -> gn j = IZR (nth j g_num 0%Z) / IZR (nth j g_den 1%Z).
Proof. intros j H. unfold gn, g_table, g_num, g_den. do 12 (destruct j as [|j]; [first [reflexivity|cbn [nth]; lra]|]). lia. Qed.
Lemma g_cross : forallb (fun i => forallb (fun j => Nat.eqb i j || negb (Z.eqb (nth i g_num 0 * nth j g_den 1) (nth j g_num 0 * nth i g_den 1)))%Z (seq 0 12)) (seq 0 12) = true.
Proof. vm_compute. reflexivity. Qed.
Lemma g_den_pos : forall j, (0 < nth j g_den 1)%Z.
Proof. intros j. unfold g_den. do 12 (destruct j as [|j]; [vm_compute; reflexivity|]). destruct j; vm_compute; reflexivity. Qed.
Lemma gn_inj : forall i j, (i < 12)%nat -> (j < 12)%nat -> gn i = gn j -> i = j.
Proof.
  intros i j Hi Hj E. assert (Q := g_cross). rewrite forallb_forall in Q. specialize (Q i ltac:(apply in_seq; lia)). rewrite forallb_forall in Q. specialize (Q j ltac:(apply in_seq; lia)).
  apply orb_true_iff in Q. destruct Q as [Q|Q]; [now apply Nat.eqb_eq|]. exfalso. apply negb_true_iff, Z.eqb_neq in Q. apply Q.
  rewrite (gn_frac i Hi), (gn_frac j Hj) in E. assert (D1 := IZR_lt _ _ (g_den_pos i)). assert (D2 := IZR_lt _ _ (g_den_pos j)). apply eq_IZR. rewrite !mult_IZR.
  apply (f_equal (fun x => x * IZR (nth i g_den 1%Z) * IZR (nth j g_den 1%Z))) in E. field_simplify in E; [|lra|lra]. lra.
Qed.
Definition sq (j : nat) : R := gn j ^ 2.
Lemma sq_inj : forall i j, (i < 12)%nat -> (j < 12)%nat -> sq i = sq j -> i = j.
Proof.
  intros i j Hi Hj E. apply gn_inj; try assumption. unfold sq in E.
  assert (P : forall k, (k < 12)%nat -> 0 <= gn k) by (intros [|k] Hk; [rewrite gn_0; lra|left; apply gn_pos; lia]).
  assert (Pi := P i Hi). assert (Pj := P j Hj). assert ((gn i - gn j) * (gn i + gn j) = 0) by lra. apply Rmult_integral in H. lra.
Qed.

(** The table *)
Definition den (p j : nat) : R := prodl (map (fun i => if Nat.eqb i p then 1 else sq p - sq i) (seq 0 (S j))).
Definition wt (p j : nat) : R := md j / den p j.
Lemma prodl_nz : forall l, (forall x, In x l -> x <> 0) -> prodl l <> 0.
Proof. induction l as [|a l IH]; intros H; cbn [prodl]; [lra|]. apply Rmult_integral_contrapositive_currified; [apply H; now left|apply IH; intros; apply H; now right]. Qed.
Lemma den_nz : forall p j, (p < 12)%nat -> (j < 12)%nat -> den p j <> 0.
Proof.
  intros p j Hp Hj. apply prodl_nz. intros x Hx. apply in_map_iff in Hx. destruct Hx as (i & <- & Hi). apply in_seq in Hi. destruct (Nat.eqb_spec i p) as [E|N]; [lra|].
  intros E. apply N. symmetry. apply sq_inj; [lia|lia|lra].
Qed.
Lemma den_S : forall p j, den p (S j) = den p j * (if Nat.eqb (S j) p then 1 else sq p - sq (S j)).
Proof. intros p j. unfold den. rewrite (seq_S (S j)), map_app, prodl_app. cbn [map prodl Nat.add]. ring. Qed.

(** The product in the table before the row is passed *)
Definition den0 (p j : nat) : R := prodl (map (fun i => sq p - sq (if Nat.leb i p then i - 1 else i)) (seq 1 j)).
Lemma den0_S : forall p j, den0 p (S j) = den0 p j * (sq p - sq (if Nat.leb (S j) p then j else S j)).
Proof. intros p j. unfold den0. rewrite (seq_S j), map_app, prodl_app. cbn [map prodl Nat.add]. replace (S j - 1)%nat with j by lia. ring. Qed.
Lemma den0_den : forall p j, (p <= j)%nat -> den0 p j = den p j.
Proof.
  intros p j H. induction H as [|j H IH].
  - unfold den0, den. rewrite (seq_S p), map_app, prodl_app. cbn [map prodl Nat.add]. rewrite Nat.eqb_refl. replace (prodl _ * (1 * 1)) with (prodl (map (fun i => if Nat.eqb i p then 1 else sq p - sq i) (seq 0 p))) by ring.
    rewrite <- seq_shift, map_map. f_equal. apply map_ext_in. intros i Hi. apply in_seq in Hi. replace (Nat.leb (S i) p) with true by (symmetry; apply Nat.leb_le; lia). replace (Nat.eqb i p) with false by (symmetry; apply Nat.eqb_neq; lia). now replace (S i - 1)%nat with i by lia.
  - rewrite den0_S, den_S, IH. replace (Nat.leb (S j) p) with false by (symmetry; apply Nat.leb_gt; lia). replace (Nat.eqb (S j) p) with false by (symmetry; apply Nat.eqb_neq; lia). reflexivity.
Qed.

Section Table.
Variable maxord : nat.
Hypothesis mo : (1 <= maxord <= 12)%nat.
Let moment := map md (seq 0 maxord).
Lemma mom_at : forall i, (1 <= i <= maxord)%nat -> rd1 moment i = Ok (md (i - 1)).
Proof. intros i Hi. unfold moment. rewrite (rd1_nth _ _ i (md 0)) by (rewrite map_length, seq_length; lia). rewrite map_nth, seq_nth by lia. reflexivity. Qed.

Lemma den0_nz : forall p j, (p < 12)%nat -> (j < 12)%nat -> den0 p j <> 0.
Proof.
  intros p j Hp Hj. apply prodl_nz. intros x Hx. apply in_map_iff in Hx. destruct Hx as (i & <- & Hi). apply in_seq in Hi. intros E.
  assert (Q : sq p = sq (if Nat.leb i p then i - 1 else i)%nat) by lra. destruct (Nat.leb_spec i p); apply sq_inj in Q; lia.
Qed.
Lemma cells_ok : forall p, (p < maxord)%nat -> forall n i, (1 <= i)%nat -> (i + n <= maxord)%nat ->
  momprd_cells (p + 1) moment (sq p) (/ den0 p (i - 1)) (seq (i + 1) n) = Ok (Some (map (fun k => md (k - 1) / den0 p (k - 1)) (seq (i + 1) n))).
Proof.
  intros p Hp. induction n as [|n IH]; intros i Hi Hn; [reflexivity|]. cbn [seq momprd_cells map].
  set (k := if Nat.leb i p then (i - 1)%nat else i).
  assert (GI : (if Nat.leb (i + 1) (p + 1) then rd1 g_table (i + 1 - 1) else rd1 g_table (i + 1)) = Ok (gn k)).
  { unfold k. destruct (Nat.leb_spec i p) as [Q|Q].
    - replace (Nat.leb (i + 1) (p + 1)) with true by (symmetry; apply Nat.leb_le; lia). replace (i + 1 - 1)%nat with (i - 1 + 1)%nat by lia. apply rd_gn. lia.
    - replace (Nat.leb (i + 1) (p + 1)) with false by (symmetry; apply Nat.leb_gt; lia). apply rd_gn. lia. }
  rewrite GI. fold (sq k). assert (NK : k <> p) by (unfold k; destruct (Nat.leb_spec i p); lia). assert (K12 : (k < 12)%nat) by (unfold k; destruct (Nat.leb i p); lia).
  replace (Reqb (sq p) (sq k)) with false by (symmetry; apply Reqb_false; intros E; apply NK; symmetry; apply sq_inj; [lia|lia|exact E]).
  rewrite mom_at by lia. cbv zeta.
  assert (D : / den0 p (i - 1) / (sq p - sq k) = / den0 p (i + 1 - 1)).
  { replace (i + 1 - 1)%nat with (S (i - 1)) by lia. rewrite den0_S. replace (S (i - 1)) with i by lia. fold k. assert (den0 p (i - 1) <> 0) by (apply den0_nz; lia). assert (sq p - sq k <> 0) by (intros E; apply NK; symmetry; apply sq_inj; [lia|lia|lra]). field. auto. }
  rewrite D. specialize (IH (i + 1)%nat ltac:(lia) ltac:(lia)). replace (i + 1 + 1)%nat with (S (i + 1)) in IH by lia. rewrite IH. do 3 f_equal. unfold Rdiv. ring.
Qed.
Lemma rows_ok : forall n p, (p + n <= maxord)%nat ->
  momprd_rows maxord moment (seq (p + 1) n) = Ok (Some (map (fun l => md 0 :: map (fun k => md (k - 1) / den0 (l - 1) (k - 1)) (seq 2 (maxord - 1))) (seq (p + 1) n))).
Proof.
  induction n as [|n IH]; intros p Hp; [reflexivity|]. cbn [seq momprd_rows map]. rewrite rd_gn by lia.
  replace (Rltb (gn p) 0) with false.
  2: { symmetry. apply Rltb_false. destruct p as [|p]; [rewrite gn_0; lra|]. assert (Q := gn_pos (S p) ltac:(lia)). lra. }
  rewrite mom_at by lia. fold (sq p). assert (C := cells_ok p ltac:(lia) (maxord - 1) 1 ltac:(lia) ltac:(lia)). replace (/ den0 p (1 - 1)) with 1 in C by (unfold den0; cbn; field). cbn [Nat.add] in C. rewrite C.
  specialize (IH (p + 1)%nat ltac:(lia)). replace (p + 1 + 1)%nat with (S (p + 1)) in IH by lia. rewrite IH. now replace (p + 1 - 1)%nat with p by lia.
Qed.
Lemma table_is : exists prd, momprd maxord = Ok (Some prd) /\ holds prd maxord wt.
Proof.
  unfold momprd. rewrite (moments_is maxord mo). fold moment. assert (R0 := rows_ok maxord 0 ltac:(lia)). cbn [Nat.add] in R0. rewrite R0. eexists. split; [reflexivity|].
  intros p j H. unfold rd2. set (row := fun l => md 0 :: map (fun k => md (k - 1) / den0 (l - 1) (k - 1)) (seq 2 (maxord - 1))).
  rewrite (rd1_nth _ _ (p + 1) (row 0%nat)) by (rewrite map_length, seq_length; lia). rewrite (map_nth row), seq_nth by lia. unfold row.
  rewrite (rd1_nth _ _ (j + 1) 0) by (cbn [length]; rewrite map_length, seq_length; lia). f_equal. replace (j + 1 - 1)%nat with j by lia. unfold wt. replace (1 + (p + 1 - 1) - 1)%nat with p by lia. destruct j as [|j].
  - replace p with 0%nat by lia. unfold den. cbn. field.
  - cbn [nth]. set (cl := fun k => md (k - 1) / den0 p (k - 1)). rewrite (nth_indep _ 0 (cl 0%nat)) by (rewrite map_length, seq_length; lia). rewrite (map_nth cl), seq_nth by lia. unfold cl. replace (2 + j - 1)%nat with (S j) by lia. now rewrite den0_den by lia.
Qed.
End Table.

(** Divided differences *)
Definition dl (x : R) (T : list R) : R := prodl (map (fun y => if Req_EM_T x y then 1 else x - y) T).
Definition SS (T : list R) : R := sumR (map (fun x => / dl x T) T).
Lemma dl_nz : forall x T, dl x T <> 0.
Proof. intros x T. apply prodl_nz. intros v Hv. apply in_map_iff in Hv. destruct Hv as (y & <- & _). destruct (Req_EM_T x y); lra. Qed.
Lemma dl_cons_eq : forall x T, dl x (x :: T) = dl x T.
Proof. intros x T. unfold dl. cbn [map prodl]. destruct (Req_EM_T x x); [ring|congruence]. Qed.
Lemma dl_cons_ne : forall x y T, x <> y -> dl x (y :: T) = (x - y) * dl x T.
Proof. intros x y T H. unfold dl. cbn [map prodl]. destruct (Req_EM_T x y); [contradiction|reflexivity]. Qed.
Lemma SS_step : forall x y T, NoDup (x :: y :: T) -> (x - y) * SS (x :: y :: T) = SS (x :: T) - SS (y :: T).
Proof.
  intros x y T ND. inversion ND as [|? ? N1 ND1]; subst. inversion ND1 as [|? ? N2 ND2]; subst.
  assert (XY : x <> y) by (intros ->; apply N1; now left). assert (XT : ~ In x T) by (intros H; apply N1; now right).
  unfold SS. cbn [map]. change (sumR (?a :: ?b)) with (a + sumR b). unfold sumR. cbn [fold_right].
  rewrite (dl_cons_eq x (y :: T)), (dl_cons_ne x y T XY), (dl_cons_eq x T), (dl_cons_eq y T), (dl_cons_ne y x (y :: T)) by auto. rewrite (dl_cons_eq y T).
  assert (E : (x - y) * fold_right Rplus 0 (map (fun z => / dl z (x :: y :: T)) T) = fold_right Rplus 0 (map (fun z => / dl z (x :: T)) T) - fold_right Rplus 0 (map (fun z => / dl z (y :: T)) T)).
  { assert (G : forall z, In z T -> (x - y) * / dl z (x :: y :: T) = / dl z (x :: T) - / dl z (y :: T)).
    { intros z Hz. assert (z <> x) by (intros ->; contradiction). assert (z <> y) by (intros ->; contradiction). rewrite (dl_cons_ne z x), (dl_cons_ne z y), (dl_cons_ne z x) by assumption. assert (Q := dl_nz z T). field. repeat split; lra. }
    revert G. generalize (x :: y :: T) (x :: T) (y :: T). clear. intros A B C. induction T as [|z T IH]; intros G; cbn [map fold_right]; [ring|].
    rewrite Rmult_plus_distr_l, IH by (intros; apply G; now right). rewrite (G z (or_introl eq_refl)). ring. }
  rewrite !Rmult_plus_distr_l, E. assert (Q1 := dl_nz x T). assert (Q2 := dl_nz y T). field. repeat split; lra.
Qed.
Lemma SS_zero : forall n T, length T = S (S n) -> NoDup T -> SS T = 0.
Proof.
  induction n as [|n IH]; intros T L ND; (destruct T as [|x [|y T]]; try discriminate); assert (E := SS_step x y T ND);
    (assert (XY : x <> y) by (inversion ND as [|? ? N1 _]; subst; intros ->; apply N1; now left)).
  - destruct T; [|discriminate]. unfold SS, dl, sumR in *. cbn in *. destruct (Req_EM_T x x), (Req_EM_T y y), (Req_EM_T x y), (Req_EM_T y x); try congruence. field. lra.
  - rewrite (IH (x :: T)) in E. 
    + rewrite (IH (y :: T)) in E; [|cbn in *; lia|now inversion ND]. assert (x - y <> 0) by lra. apply (Rmult_eq_reg_l (x - y)); [lra|assumption].
    + cbn in *. lia.
    + inversion ND as [|? ? N1 ND1]; subst. inversion ND1; subst. constructor; [intros H; apply N1; now right|assumption].
Qed.

(** The differences of constants and of the squares *)
Definition dd (j : nat) (F : nat -> R) : R := sg j (fun p => F p / den p j).
Lemma dd_const : forall j c, (j < 12)%nat -> dd j (fun _ => c) = if Nat.eqb j 0 then c else 0.
Proof.
  intros j c Hj. unfold dd. rewrite (sg_ext _ _ (fun p => c * / den p j)) by reflexivity. rewrite <- sg_mul. destruct j as [|j]; [rewrite sg_0; unfold den; cbn; field|]. cbn [Nat.eqb].
  set (T := map sq (seq 0 (S (S j)))). assert (ND : NoDup T).
  { unfold T. assert (Q : forall l, NoDup l -> (forall i, In i l -> (i < 12)%nat) -> NoDup (map sq l)).
    { induction l as [|i l IH]; intros N H; [constructor|]. inversion N; subst. cbn [map]. constructor; [|apply IH; [assumption|intros; apply H; now right]].
      intros C. apply in_map_iff in C. destruct C as (k & E & Hk). apply sq_inj in E; [subst k; contradiction|apply H; now right|apply H; now left]. }
    apply Q; [apply seq_NoDup|]. intros i Hi. apply in_seq in Hi. lia. }
  assert (E : sg (S j) (fun p => / den p (S j)) = SS T).
  { unfold SS, T. rewrite sg_sumR, map_map. f_equal. apply map_ext_in. intros p Hp. apply in_seq in Hp. f_equal. unfold den, dl. f_equal. rewrite map_map. apply map_ext_in. intros i Hi. apply in_seq in Hi.
    destruct (Nat.eqb_spec i p) as [->|N]; [destruct (Req_EM_T (sq p) (sq p)); congruence|]. destruct (Req_EM_T (sq p) (sq i)) as [E|]; [|reflexivity]. exfalso. apply N. symmetry. apply sq_inj; [lia|lia|exact E]. }
  rewrite E, (SS_zero j) by (assumption || (unfold T; now rewrite map_length, seq_length)). ring.
Qed.
Lemma dd_sq : forall j, (j < 12)%nat -> dd j sq = if Nat.eqb j 1 then 1 else 0.
Proof.
  intros [|j] Hj; [unfold dd; rewrite sg_0; unfold den, sq; cbn [seq map prodl Nat.eqb]; rewrite gn_0; field|].
  assert (E : dd (S j) sq = sq (S j) * dd (S j) (fun _ => 1) + dd j (fun _ => 1)).
  { unfold dd. rewrite sg_mul, sg_S, (sg_S j). assert (P : sg j (fun p => sq p / den p (S j)) = sg j (fun p => sq (S j) * (1 / den p (S j))) + sg j (fun p => 1 / den p j)).
    { rewrite sg_plus. apply sg_ext. intros p Hp. rewrite den_S. destruct (Nat.eqb_spec (S j) p); [lia|]. assert (den p j <> 0) by (apply den_nz; lia). assert (sq p - sq (S j) <> 0) by (intros Q; apply n; symmetry; apply sq_inj; [lia|lia|lra]). field. auto. }
    rewrite P. field. apply den_nz; lia. }
  rewrite E, !dd_const by lia. cbn [Nat.eqb]. destruct (Nat.eqb j 0); ring.
Qed.

(** Functions of degree three *)
Lemma row_sums : forall c a e0 e1 e2 e3 j, (j < 12)%nat ->
  sg j (fun p => wt p j * cell (fun x => e0 + e1 * x + e2 * x ^ 2 + e3 * x ^ 3) c a p) =
  match j with O => 2 * a * (e0 + e1 * c + e2 * c ^ 2 + e3 * c ^ 3) | S O => 2 / 3 * a ^ 3 * (e2 + 3 * e3 * c) | _ => 0 end.
Proof.
  intros c a e0 e1 e2 e3 j Hj. set (A := a * (e0 + e1 * c + e2 * c ^ 2 + e3 * c ^ 3)). set (B := a ^ 3 * (e2 + 3 * e3 * c)).
  rewrite (sg_ext _ _ (fun p => md j * (A / den p j) + md j * B * (sq p / den p j))).
  - rewrite <- sg_plus, <- !sg_mul. fold (dd j (fun _ => A)). fold (dd j sq). rewrite dd_const, dd_sq by exact Hj. destruct j as [|[|j]]; cbn [Nat.eqb].
    + rewrite md_0. unfold A. ring.
    + rewrite md_1. unfold B. ring.
    + ring.
  - intros p Hp. unfold wt, cell, sq, A, B. assert (den p j <> 0) by (apply den_nz; lia). field. assumption.
Qed.
