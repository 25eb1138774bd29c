(** Fully symmetric sums of monomials *)

From Coq Require Import List Bool Arith ZArith Reals Permutation Lra Lia.
From Verif Require Import Exn Instances CountSpec McLemmas5 SySpec SyLemmas4 SyLemmas5 SyLemmas6 SyLemmas7 DcModel DcLemmas.
Import ListNotations.
Open Scope R_scope.

(** Vectors with c1 ones, c2 twos and zeros *)
Fixpoint sel (n c1 c2 : nat) : list (list nat) :=
  match n with
  | O => match c1, c2 with O, O => [[]] | _, _ => [] end
  | S n' => map (cons 0%nat) (sel n' c1 c2) ++ (match c1 with O => [] | S c => map (cons 1%nat) (sel n' c c2) end) ++ (match c2 with O => [] | S c => map (cons 2%nat) (sel n' c1 c) end)
  end.
Definition ones (n c1 c2 : nat) : list nat := repeat 2%nat c2 ++ repeat 1%nat c1 ++ repeat 0%nat (n - c1 - c2).

Lemma sel_iff : forall n c1 c2 p, In p (sel n c1 c2) <->
  length p = n /\ count_occ Nat.eq_dec p 1%nat = c1 /\ count_occ Nat.eq_dec p 2%nat = c2 /\ forall j, In j p -> (j <= 2)%nat.
Proof.
  induction n as [|n IH]; intros c1 c2 p.
  - destruct p as [|a p].
    + cbn. destruct c1, c2; cbn; split; intros; try tauto; try (destruct H; try lia; try contradiction); repeat split; try (intros; contradiction); try lia. 
    + split; [|intros [H _]; discriminate]. destruct c1, c2; cbn; try tauto. intros [H|[]]. discriminate.
  - cbn [sel]. rewrite !in_app_iff. split.
    + intros [H|[H|H]].
      * apply in_map_iff in H. destruct H as (q & <- & H). apply IH in H. destruct H as (H1 & H2 & H3 & H4). cbn [length count_occ]. destruct (Nat.eq_dec 0 1); [lia|]. destruct (Nat.eq_dec 0 2); [lia|]. repeat split; try lia. intros j [<-|Hj]; [lia|auto].
      * destruct c1 as [|c1]; [destruct H|]. apply in_map_iff in H. destruct H as (q & <- & H). apply IH in H. destruct H as (H1 & H2 & H3 & H4). cbn [length count_occ]. destruct (Nat.eq_dec 1 1); [|lia]. destruct (Nat.eq_dec 1 2); [lia|]. repeat split; try lia. intros j [<-|Hj]; [lia|auto].
      * destruct c2 as [|c2]; [destruct H|]. apply in_map_iff in H. destruct H as (q & <- & H). apply IH in H. destruct H as (H1 & H2 & H3 & H4). cbn [length count_occ]. destruct (Nat.eq_dec 2 1); [lia|]. destruct (Nat.eq_dec 2 2); [|lia]. repeat split; try lia. intros j [<-|Hj]; [lia|auto].
    + intros (H1 & H2 & H3 & H4). destruct p as [|a p]; [discriminate|]. cbn [length count_occ] in *. assert (HA := H4 a (or_introl eq_refl)).
      assert (HR : forall j, In j p -> (j <= 2)%nat) by (intros; apply H4; now right).
      destruct a as [|[|[|a]]]; [| | |lia].
      * left. apply in_map. apply IH. destruct (Nat.eq_dec 0 1); [lia|]. destruct (Nat.eq_dec 0 2); [lia|]. auto with arith.
      * right. left. destruct (Nat.eq_dec 1 1); [|lia]. destruct (Nat.eq_dec 1 2); [lia|]. destruct c1 as [|c1]; [lia|]. apply in_map. apply IH. auto with arith.
      * right. right. destruct (Nat.eq_dec 2 2); [|lia]. destruct (Nat.eq_dec 2 1); [lia|]. destruct c2 as [|c2]; [lia|]. apply in_map. apply IH. auto with arith.
Qed.
Lemma sel_nodup : forall n c1 c2, NoDup (sel n c1 c2).
Proof.
  assert (MC : forall (a : nat) l, NoDup l -> NoDup (map (cons a) l)) by (intros a l H; apply FinFun.Injective_map_NoDup; [intros x y E; now injection E|exact H]).
  induction n as [|n IH]; intros c1 c2; cbn [sel].
  - destruct c1, c2; repeat constructor; intros [].
  - apply NoDup_join; [apply MC, IH| |].
    + apply NoDup_join; [destruct c1; [constructor|apply MC, IH]|destruct c2; [constructor|apply MC, IH]|].
      intros z H H'. destruct c1; [destruct H|]. destruct c2; [destruct H'|]. apply in_map_iff in H, H'. destruct H as (q & <- & _), H' as (q' & E & _). discriminate.
    + intros z H H'. apply in_map_iff in H. destruct H as (q & <- & _). apply in_app_or in H'. destruct H' as [H'|H'].
      * destruct c1; [destruct H'|]. apply in_map_iff in H'. destruct H' as (q' & E & _). discriminate.
      * destruct c2; [destruct H'|]. apply in_map_iff in H'. destruct H' as (q' & E & _). discriminate.
Qed.
Lemma count_repeat : forall a b k, count_occ Nat.eq_dec (repeat a k) b = if Nat.eqb a b then k else 0%nat.
Proof.
  intros a b k. induction k as [|k IH]; cbn [repeat count_occ]; [now destruct (Nat.eqb a b)|]. rewrite IH. destruct (Nat.eq_dec a b), (Nat.eqb_spec a b); congruence || lia.
Qed.
Lemma sel_all : forall n c1 c2, (c1 + c2 <= n)%nat -> all_of (sel n c1 c2) (fun p => Permutation p (ones n c1 c2)).
Proof.
  intros n c1 c2 H. split; [apply sel_nodup|]. intros p. rewrite sel_iff. unfold ones. split.
  - intros (H1 & H2 & H3 & H4). apply (Permutation_count_occ Nat.eq_dec). intros x. rewrite !count_occ_app, !count_repeat.
    destruct x as [|[|[|x]]]; cbn [Nat.eqb]; try lia.
    + enough (Q : forall q, (forall j, In j q -> (j <= 2)%nat) -> (count_occ Nat.eq_dec q 0 + count_occ Nat.eq_dec q 1 + count_occ Nat.eq_dec q 2 = length q)%nat) by (specialize (Q p H4); lia).
      clear. induction q as [|a q IH]; intros Q; [reflexivity|]. specialize (IH (fun j Hj => Q j (or_intror Hj))). specialize (Q a (or_introl eq_refl)). cbn [count_occ length].
      destruct (Nat.eq_dec a 0), (Nat.eq_dec a 1), (Nat.eq_dec a 2); lia.
    + apply count_occ_not_In. intros C. specialize (H4 _ C). lia.
  - intros P. rewrite (Permutation_length P), !app_length, !repeat_length. assert (Q := proj1 (Permutation_count_occ Nat.eq_dec _ _) P). rewrite !Q, !count_occ_app, !count_repeat. cbn [Nat.eqb].
    repeat split; try lia. intros j Hj. apply (Permutation_in _ P) in Hj. apply in_app_or in Hj. destruct Hj as [Hj|Hj]; [apply repeat_spec in Hj; lia|]. apply in_app_or in Hj. destruct Hj as [Hj|Hj]; apply repeat_spec in Hj; lia.
Qed.
Lemma desc_repeat : forall a k, desc (repeat a k).
Proof. intros a k. induction k as [|k IH]; [constructor|]. cbn [repeat]. apply desc_cons. split; [exact IH|]. intros b Hb. apply repeat_spec in Hb. lia. Qed.
Lemma ones_desc : forall n c1 c2, desc (ones n c1 c2).
Proof.
  intros n c1 c2. unfold ones. apply desc_app. split; [apply desc_repeat|]. split; [apply desc_app; split; [apply desc_repeat|split; [apply desc_repeat|]]|]; intros a b Ha Hb.
  - apply repeat_spec in Ha, Hb. lia.
  - apply repeat_spec in Ha. apply in_app_or in Hb. destruct Hb as [Hb|Hb]; apply repeat_spec in Hb; lia.
Qed.
Lemma ones_len : forall n c1 c2, (c1 + c2 <= n)%nat -> length (ones n c1 c2) = n.
Proof. intros n c1 c2 H. unfold ones. rewrite !app_length, !repeat_length. lia. Qed.
Lemma ones_le : forall n c1 c2 j, In j (ones n c1 c2) -> (j <= 2)%nat.
Proof. intros n c1 c2 j H. unfold ones in H. apply in_app_or in H. destruct H as [H|H]; [apply repeat_spec in H; lia|]. apply in_app_or in H. destruct H as [H|H]; apply repeat_spec in H; lia. Qed.

(** The sums of monomials, one exponent after the other *)
Fixpoint esum (e : list nat) (x1 x2 : R) (c1 c2 : nat) : R :=
  match e with
  | [] => match c1, c2 with O, O => 1 | _, _ => 0 end
  | k :: e' => 0 ^ k * esum e' x1 x2 c1 c2 + (match c1 with O => 0 | S c => (x1 ^ k + (- x1) ^ k) * esum e' x1 x2 c c2 end) + (match c2 with O => 0 | S c => (x2 ^ k + (- x2) ^ k) * esum e' x1 x2 c1 c end)
  end.
Lemma sumR_cat : forall a b, sumR (a ++ b) = sumR a + sumR b.
Proof. intros a b. unfold sumR. induction a as [|x a IH]; cbn [app fold_right]; [ring|]. rewrite IH. ring. Qed.
Lemma sumR_scal : forall A (g : A -> R) c l, sumR (map (fun x => c * g x) l) = c * sumR (map g l).
Proof. intros A g c l. induction l as [|x l IH]; unfold sumR in *; cbn [map fold_right]; [ring|]. rewrite IH. ring. Qed.
Section Sums.
Variable phi : nat -> R.
Hypothesis phi0 : phi 0%nat = 0.
Definition cellm (k j : nat) : R := if Nat.eqb j 0 then 0 ^ k else phi j ^ k + (- phi j) ^ k.
Fixpoint cellsm (e p : list nat) : R := match e, p with k :: e', j :: p' => cellm k j * cellsm e' p' | _, _ => 1 end.
Lemma signs_sum : forall e p, length p = length e -> sumR (map (fun t => monomial e (gs phi p t)) (signs (mask p))) = cellsm e p.
Proof.
  induction e as [|k e IH]; intros [|j p] L; try discriminate; [unfold sumR; cbn; ring|]. cbn [mask map signs cellsm]. cbn [length] in L. rewrite <- (IH p) by lia. clear IH. fold (mask p).
  generalize (signs (mask p)). intros l. induction l as [|t l IH]; [unfold sumR; cbn; ring|]. cbn [flat_map map]. rewrite map_app, sumR_cat, IH. unfold sumR at 3. cbn [fold_right]. fold (sumR (map (fun t => monomial e (gs phi p t)) l)). rewrite Rmult_plus_distr_l. f_equal.
  unfold cellm, sumR. destruct (Nat.eqb_spec j 0) as [->|N]; cbn [negb map fold_right gs monomial]; [rewrite phi0; ring|ring].
Qed.
Lemma sel_sum : forall e c1 c2, sumR (map (cellsm e) (sel (length e) c1 c2)) = esum e (phi 1%nat) (phi 2%nat) c1 c2.
Proof.
  induction e as [|k e IH]; intros c1 c2; cbn [length sel esum].
  - destruct c1, c2; unfold sumR; cbn; ring.
  - assert (Q : forall j l, sumR (map (cellsm (k :: e)) (map (cons j) l)) = cellm k j * sumR (map (cellsm e) l)).
    { intros j l. rewrite map_map. cbn [cellsm]. apply sumR_scal. }
    rewrite !map_app, !sumR_cat, Q, IH. unfold cellm at 1. cbn [Nat.eqb]. rewrite <- Rplus_assoc. f_equal; [f_equal|].
    + destruct c1 as [|c1]; [reflexivity|]. rewrite Q, IH. reflexivity.
    + destruct c2 as [|c2]; [reflexivity|]. rewrite Q, IH. reflexivity.
Qed.
End Sums.

(** Even powers *)
Lemma pow_opp : forall x k, (- x) ^ k = if Nat.even k then x ^ k else - x ^ k.
Proof.
  intros x k. induction k as [|k IH]; [reflexivity|]. cbn [pow]. rewrite IH, Nat.even_succ, <- Nat.negb_even. destruct (Nat.even k); cbn [negb]; ring.
Qed.
Lemma esum_odd : forall e x1 x2 c1 c2, existsb Nat.odd e = true -> esum e x1 x2 c1 c2 = 0.
Proof.
  induction e as [|k e IH]; intros x1 x2 c1 c2 H; [discriminate|]. cbn [existsb] in H. cbn [esum]. rewrite !pow_opp.
  destruct (Nat.odd k) eqn:K.
  - rewrite <- Nat.negb_even in K. destruct (Nat.even k) eqn:K2; [discriminate|]. destruct k as [|k]; [discriminate|]. rewrite pow_i by lia. destruct c1, c2; ring.
  - cbn [orb] in H. rewrite IH by exact H. destruct c1 as [|c1], c2 as [|c2]; rewrite ?IH by exact H; ring.
Qed.
Definition evens (e : list nat) : Prop := forall k, In k e -> Nat.even k = true.
Definition nz (e : list nat) : list nat := filter (fun k => negb (Nat.eqb k 0)) e.
Definition zs (e : list nat) : nat := length e - length (nz e).
Lemma nz_le : forall e, (length (nz e) <= length e)%nat.
Proof. induction e as [|k e IH]; [apply Nat.le_refl|]. unfold nz in *. cbn [filter]. destruct (negb (Nat.eqb k 0)); cbn [length]; lia. Qed.
Fixpoint bb (z k : nat) : R :=
  match k with O => 1 | S k' => match z with O => 0 | S z' => bb z' k + 2 * bb z' k' end end.
Lemma bb_0 : forall z, bb z 0 = 1.
Proof. now intros [|z]. Qed.
Fixpoint pp (x : R) (l : list nat) : R := match l with [] => 1 | k :: l' => 2 * x ^ k * pp x l' end.
Lemma esum_one : forall e, evens e -> forall x1 x2 c, esum e x1 x2 c 0 = if Nat.leb (length (nz e)) c then pp x1 (nz e) * bb (zs e) (c - length (nz e)) else 0.
Proof.
  induction e as [|k e IH]; intros H x1 x2 c.
  - destruct c as [|c]; cbn; ring.
  - assert (HE : evens e) by (intros q Hq; apply H; now right). specialize (IH HE x1 x2). assert (HK := H k (or_introl eq_refl)). cbn [esum]. rewrite pow_opp, HK, !IH.
    assert (NL := nz_le e). destruct k as [|k].
    + change (nz (0%nat :: e)) with (nz e). assert (ZE : zs (0%nat :: e) = S (zs e)) by (unfold zs; change (nz (0%nat :: e)) with (nz e); cbn [length]; lia). rewrite ZE.
      destruct c as [|c]; [destruct (Nat.leb_spec (length (nz e)) 0) as [L|L]; [replace (0 - length (nz e))%nat with 0%nat by lia; rewrite !bb_0; cbn [pow]; ring|cbn [pow]; ring]|].
      rewrite IH. destruct (Nat.leb_spec (length (nz e)) (S c)) as [L|L]; destruct (Nat.leb_spec (length (nz e)) c) as [L'|L']; try lia.
      * replace (S c - length (nz e))%nat with (S (c - length (nz e))) by lia. cbn [bb pow]. ring.
      * replace (S c - length (nz e))%nat with 0%nat by lia. rewrite !bb_0. cbn [pow]. ring.
      * cbn [pow]. ring.
    + change (nz (S k :: e)) with (S k :: nz e). assert (ZE : zs (S k :: e) = zs e) by (unfold zs; change (nz (S k :: e)) with (S k :: nz e); cbn [length]; lia). rewrite ZE. rewrite pow_i by lia. cbn [length pp].
      destruct c as [|c]; [cbn [Nat.leb]; ring|]. rewrite IH. cbn [Nat.leb Nat.sub]. destruct (Nat.leb (length (nz e)) c); ring.
Qed.
Lemma bb_1 : forall z, bb z 1 = 2 * INR z.
Proof. induction z as [|z IH]; [cbn; ring|]. change (bb (S z) 1) with (bb z 1 + 2 * bb z 0). rewrite IH, bb_0, S_INR. ring. Qed.
Lemma bb_2 : forall z, bb z 2 = 2 * INR z * (INR z - 1).
Proof. induction z as [|z IH]; [cbn; ring|]. change (bb (S z) 2) with (bb z 2 + 2 * bb z 1). rewrite IH, bb_1, S_INR. ring. Qed.
Lemma bb_3 : forall z, bb z 3 = 4 * INR z * (INR z - 1) * (INR z - 2) / 3.
Proof. induction z as [|z IH]; [cbn; field|]. change (bb (S z) 3) with (bb z 3 + 2 * bb z 2). rewrite IH, bb_2, S_INR. field. Qed.
Lemma bb_big : forall z k, (z < k)%nat -> bb z k = 0.
Proof. induction z as [|z IH]; intros [|k] H; try lia; [reflexivity|]. cbn [bb]. rewrite !IH by lia. ring. Qed.
Lemma bb_all : forall z, bb z z = 2 ^ z.
Proof. induction z as [|z IH]; [reflexivity|]. cbn [bb pow]. rewrite IH, bb_big by lia. ring. Qed.
Lemma pp_pow : forall x l, pp x l = 2 ^ length l * x ^ list_sum l.
Proof. intros x l. induction l as [|k l IH]; [cbn; ring|]. cbn [pp length list_sum fold_right pow]. rewrite IH. fold (list_sum l). rewrite pow_add. ring. Qed.
Lemma nz_sum : forall e, list_sum (nz e) = list_sum e.
Proof. induction e as [|k e IH]; [reflexivity|]. unfold nz in *. cbn [filter]. destruct k; cbn [negb Nat.eqb list_sum fold_right] in *; [exact IH|]. f_equal. exact IH. Qed.
Lemma esum_full : forall e, evens e -> forall x1 x2, esum e x1 x2 (length e) 0 = 2 ^ length e * x1 ^ list_sum e.
Proof.
  intros e H x1 x2. rewrite esum_one by exact H. assert (N := nz_le e). rewrite (proj2 (Nat.leb_le _ _) N). unfold zs. rewrite bb_all, pp_pow, nz_sum.
  replace (2 ^ length e) with (2 ^ (length (nz e)) * 2 ^ (length e - length (nz e))); [ring|]. rewrite <- pow_add. f_equal. lia.
Qed.
(** One of each *)
Definition one_each (z : nat) (l : list nat) (x1 x2 : R) : R :=
  match l with
  | [] => 4 * INR z * (INR z - 1)
  | [k] => 4 * INR z * (x1 ^ k + x2 ^ k)
  | [k; k'] => 4 * (x1 ^ k * x2 ^ k' + x2 ^ k * x1 ^ k')
  | _ => 0
  end.
Lemma esum_swap : forall e x1 x2 c1 c2, esum e x1 x2 c1 c2 = esum e x2 x1 c2 c1.
Proof. induction e as [|k e IH]; intros x1 x2 c1 c2; cbn [esum]; [destruct c1, c2; reflexivity|]. rewrite IH. destruct c1 as [|c1], c2 as [|c2]; rewrite ?(IH x1 x2 c1), ?(IH x1 x2 (S c1)), ?(IH x1 x2 0%nat); ring. Qed.
Lemma esum_two : forall e, evens e -> forall x1 x2, esum e x1 x2 1 1 = one_each (zs e) (nz e) x1 x2.
Proof.
  induction e as [|k e IH]; intros H x1 x2; [cbn; ring|].
  assert (HE : evens e) by (intros q Hq; apply H; now right). specialize (IH HE x1 x2). assert (HK := H k (or_introl eq_refl)). cbn [esum]. rewrite !pow_opp, HK, IH.
  rewrite (esum_swap e x1 x2 0 1), !esum_one by exact HE. assert (NL := nz_le e). destruct k as [|k].
  - change (nz (0%nat :: e)) with (nz e). assert (ZE : zs (0%nat :: e) = S (zs e)) by (unfold zs; change (nz (0%nat :: e)) with (nz e); cbn [length]; lia). rewrite ZE.
    destruct (nz e) as [|a [|b [|d l]]]; cbn [length Nat.leb Nat.sub one_each pp]; rewrite ?bb_1, ?bb_0, ?S_INR; cbn [pow]; ring.
  - change (nz (S k :: e)) with (S k :: nz e). assert (ZE : zs (S k :: e) = zs e) by (unfold zs; change (nz (S k :: e)) with (S k :: nz e); cbn [length]; lia). rewrite ZE. rewrite pow_i by lia.
    destruct (nz e) as [|a [|b l]]; cbn [length Nat.leb Nat.sub one_each pp]; rewrite ?bb_1, ?bb_0; ring.
Qed.

(** Along the axes *)
Fixpoint axis_sum (e : list nat) (x : R) : R :=
  match e with [] => 0 | k :: e' => (x ^ k + (- x) ^ k) * (if forallb (Nat.eqb 0) e' then 1 else 0) + 0 ^ k * axis_sum e' x end.
Lemma esum_0 : forall e x1 x2, esum e x1 x2 0 0 = if forallb (Nat.eqb 0) e then 1 else 0.
Proof. induction e as [|k e IH]; intros x1 x2; [reflexivity|]. cbn [esum forallb]. rewrite IH. destruct k; cbn [Nat.eqb andb pow]; [destruct (forallb (Nat.eqb 0) e); ring|ring]. Qed.
Lemma axis_esum : forall e x, axis_sum e x = esum e x 0 1 0.
Proof. induction e as [|k e IH]; intros x; [reflexivity|]. cbn [axis_sum esum]. rewrite esum_0, IH. ring. Qed.
