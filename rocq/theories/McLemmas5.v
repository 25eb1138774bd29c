(** Lemmas on Sampford sampling: preparation and picks. *)

From Coq Require Import ZArith List Bool Arith Reals Lia Lra Sorting.Sorted Sorting.Permutation.
From Verif Require Import Exn Instances CountSpec McModel McSpec McLemmas McLemmas2 McLemmas3 McLemmas4.
Import ListNotations.
Open Scope R_scope.

(** ** Cumulative sums *)

Lemma sumR_app : forall a b, sumR (a ++ b) = sumR a + sumR b.
Proof. intros a b. induction a as [|x a IH]; cbn [app]; unfold sumR in *; cbn [fold_right]; [ring|]. rewrite IH. ring. Qed.
Lemma sumR_nonneg : forall l, List.Forall (fun x => 0 <= x) l -> 0 <= sumR l.
Proof. induction 1 as [|x l X F IH]; unfold sumR in *; cbn [fold_right]; lra. Qed.
Lemma sumR_perm : forall a b, Permutation a b -> sumR a = sumR b.
Proof. induction 1 as [|x a b P IH|x y a|a b c P1 IH1 P2 IH2]; unfold sumR in *; cbn [fold_right]; [reflexivity|rewrite IH; ring|ring|congruence]. Qed.
Lemma cumsum_from_length : forall l s, length (cumsum_from s l) = length l.
Proof. induction l as [|x l IH]; intros s; cbn [cumsum_from length]; [reflexivity|]. now rewrite IH. Qed.
Lemma cumsum_length : forall l, length (cumsum l) = length l.
Proof. intros l. apply cumsum_from_length. Qed.
Lemma cumsum_from_nth : forall l s i, (i < length l)%nat -> nth i (cumsum_from s l) 0 = s + sumR (firstn (S i) l).
Proof.
  induction l as [|x l IH]; intros s i I; [cbn in I; lia|]. cbn [cumsum_from]. destruct i as [|i].
  - cbn [nth firstn]. unfold sumR. cbn [fold_right]. ring.
  - cbn [nth]. cbn [length] in I. rewrite IH by lia. change (firstn (S (S i)) (x :: l)) with (x :: firstn (S i) l).
    unfold sumR. cbn [fold_right]. ring.
Qed.
Lemma cumsum_nth : forall l i, (i < length l)%nat -> nth i (cumsum l) 0 = sumR (firstn (S i) l).
Proof. intros l i I. unfold cumsum. rewrite cumsum_from_nth by exact I. ring. Qed.
Lemma last_nth : forall A (l : list A) d, last l d = nth (length l - 1) l d.
Proof.
  intros A l d. induction l as [|a l IH]; [reflexivity|]. destruct l as [|b l]; [reflexivity|].
  change (last (a :: b :: l) d) with (last (b :: l) d). rewrite IH. cbn [length]. replace (S (S (length l)) - 1)%nat with (S (S (length l) - 1))%nat by lia. reflexivity.
Qed.
Lemma cumsum_last : forall l d, l <> [] -> last (cumsum l) d = sumR l.
Proof.
  intros l d N. destruct l as [|x l]; [contradiction|].
  rewrite last_nth, cumsum_length. rewrite (nth_indep _ d 0) by (rewrite cumsum_length; cbn [length]; lia).
  rewrite cumsum_nth by (cbn [length]; lia). rewrite firstn_all2 by lia. reflexivity.
Qed.
Lemma firstn_S : forall l i, (i < length l)%nat -> sumR (firstn (S i) l) = sumR (firstn i l) + nth i l 0.
Proof.
  induction l as [|x l IH]; intros i I; [cbn in I; lia|]. destruct i as [|i]; [unfold sumR; cbn; ring|].
  change (firstn (S (S i)) (x :: l)) with (x :: firstn (S i) l). change (firstn (S i) (x :: l)) with (x :: firstn i l). cbn [length nth] in *.
  change (x + sumR (firstn (S i) l) = x + sumR (firstn i l) + nth i l 0). rewrite IH by lia. ring.
Qed.
Lemma firstn_mono : forall l i j, List.Forall (fun x => 0 <= x) l -> (i <= j)%nat -> sumR (firstn i l) <= sumR (firstn j l).
Proof.
  intros l i j F L. revert i j L. induction F as [|x l X F IH]; intros i j L; [rewrite !firstn_nil; lra|].
  destruct i as [|i].
  - cbn [firstn]. change (sumR []) with 0. apply sumR_nonneg. apply Forall_forall. intros y Y.
    assert (I : In y (x :: l)) by (rewrite <- (firstn_skipn j (x :: l)); apply in_or_app; now left). destruct I as [<-|I]; [exact X|]. rewrite Forall_forall in F. now apply F.
  - destruct j as [|j]; [lia|]. cbn [firstn]. change (x + sumR (firstn i l) <= x + sumR (firstn j l)). specialize (IH i j ltac:(lia)). lra.
Qed.

(** ** The picks *)

Lemma find_le_shift : forall A (le : A -> bool) l i, find_le le l i = (i + find_le le l 0)%nat.
Proof.
  intros A le l. induction l as [|a l IH]; intros i; cbn [find_le]; [lia|]. destruct (le a); [lia|]. rewrite IH, (IH 1%nat). lia.
Qed.
Lemma find_le_spec : forall A (le : A -> bool) l d, let i := find_le le l 0 in
  (i <= length l)%nat /\ (forall k, (k < i)%nat -> le (nth k l d) = false) /\ ((i < length l)%nat -> le (nth i l d) = true).
Proof.
  intros A le l d. induction l as [|a l IH]; cbv zeta in *; cbn [find_le length].
  - split; [lia|]. split; intros; lia.
  - destruct (le a) eqn:E.
    + split; [lia|]. split; [intros; lia|]. intros _. exact E.
    + rewrite find_le_shift. destruct IH as [A1 [A2 A3]]. cbn [Nat.add]. split; [lia|]. split.
      * intros [|k] K; [exact E|]. cbn [nth]. apply A2. lia.
      * intros K. cbn [nth]. apply A3. lia.
Qed.
Lemma find_le_map : forall A B (f : A -> B) (le : B -> bool) l i, find_le le (map f l) i = find_le (fun a => le (f a)) l i.
Proof. intros A B f le l. induction l as [|a l IH]; intros i; cbn [map find_le]; [reflexivity|]. now rewrite IH. Qed.
Lemma find_le_ext : forall A (f h : A -> bool) l i, (forall a, f a = h a) -> find_le f l i = find_le h l i.
Proof. intros A f h l. induction l as [|a l IH]; intros i H; cbn [find_le]; [reflexivity|]. rewrite H. now rewrite IH. Qed.

Definition pick (l : list R) (u : R) : nat := first_pick (cumsum l) u.
Lemma pick_spec : forall l u, l <> [] -> List.Forall (fun x => 0 <= x) l -> 0 <= u <= 1 ->
  let i := pick l u in (i < length l)%nat /\ sumR l * u <= sumR (firstn (S i) l) /\ (sumR (firstn i l) < sumR l * u \/ i = 0%nat).
Proof.
  intros l u N F U. unfold pick, first_pick. cbv zeta. rewrite cumsum_last by exact N.
  destruct (find_le_spec R (fun c => Rleb (sumR l * u) c) (cumsum l) 0) as [A1 [A2 A3]]. rewrite cumsum_length in *.
  set (i := find_le _ (cumsum l) 0) in *.
  assert (P : (0 < length l)%nat) by (destruct l; [contradiction|cbn; lia]).
  assert (I : (i < length l)%nat).
  { destruct (Nat.lt_ge_cases i (length l)) as [I|I]; [exact I|]. exfalso. specialize (A2 (length l - 1)%nat ltac:(lia)).
    apply Rleb_false in A2. apply A2. rewrite cumsum_nth by lia. replace (S (length l - 1)) with (length l) by lia. rewrite firstn_all.
    pose proof (sumR_nonneg l F). nra. }
  split; [exact I|]. split.
  - specialize (A3 I). apply Rleb_spec in A3. now rewrite cumsum_nth in A3.
  - destruct i as [|i]; [now right|left]. specialize (A2 i ltac:(lia)). apply Rleb_false in A2. rewrite cumsum_nth in A2 by lia. lra.
Qed.
Lemma pick_positive : forall l u, List.Forall (fun x => 0 <= x) l -> 0 < nth 0 l 0 -> 0 <= u <= 1 ->
  (pick l u < length l)%nat /\ 0 < nth (pick l u) l 0.
Proof.
  intros l u F P U. assert (N : l <> []) by (intros ->; cbn in P; lra).
  destruct (pick_spec l u N F U) as [I [A B]]. cbv zeta in *. split; [exact I|]. destruct B as [B|B]; [|now rewrite B].
  rewrite firstn_S in A by exact I. lra.
Qed.
Lemma ratio_pick_is : forall l u, l <> [] -> ratio_pick (map Num (cumsum l)) u = pick l u.
Proof.
  intros l u N. unfold ratio_pick, pick, first_pick. cbv zeta.
  assert (E : last (map Num (cumsum l)) NaN = Num (sumR l)).
  { rewrite last_nth, map_length, cumsum_length. assert (0 < length l)%nat by (destruct l; [contradiction|cbn; lia]).
    rewrite (nth_indep _ NaN (Num 0)) by (rewrite map_length, cumsum_length; lia). rewrite map_nth. f_equal.
    rewrite cumsum_nth by lia. replace (S (length l - 1)) with (length l) by lia. now rewrite firstn_all. }
  rewrite E. cbn [xscale]. rewrite find_le_map, cumsum_last by exact N. reflexivity.
Qed.

(** ** Preparation *)

Definition order (argsort : list R -> list nat) (w : list R) : list nat := rev (argsort w).
Definition in_order (argsort : list R -> list nat) (w : list R) : list R := map (fun i => nth i w 0) (order argsort w).
Definition lam (n : nat) (tot x : R) : R := x / tot / (1 - INR n * (x / tot)).

Lemma sorts_length : forall argsort w, sorts argsort -> length (argsort w) = length w.
Proof. intros argsort w S. destruct (S w) as [P _]. apply Permutation_length in P. now rewrite seq_length in P. Qed.
Lemma order_perm : forall argsort w, sorts argsort -> Permutation (order argsort w) (seq 0 (length w)).
Proof. intros argsort w S. unfold order. eapply Permutation_trans; [symmetry; apply Permutation_rev|]. apply S. Qed.
Lemma order_length : forall argsort w, sorts argsort -> length (order argsort w) = length w.
Proof. intros argsort w S. unfold order. now rewrite rev_length, sorts_length. Qed.
Lemma map_nth_seq : forall w : list R, map (fun i => nth i w 0) (seq 0 (length w)) = w.
Proof.
  intros w. induction w as [|x w IH]; [reflexivity|]. cbn [length seq map nth]. f_equal. rewrite <- seq_shift, map_map. exact IH.
Qed.
Lemma in_order_perm : forall argsort w, sorts argsort -> Permutation (in_order argsort w) w.
Proof.
  intros argsort w S. unfold in_order. rewrite <- (map_nth_seq w) at 2. apply Permutation_map. now apply order_perm.
Qed.
Lemma in_order_length : forall argsort w, sorts argsort -> length (in_order argsort w) = length w.
Proof. intros argsort w S. unfold in_order. now rewrite map_length, order_length. Qed.
Lemma in_order_forall : forall argsort w (Q : R -> Prop), sorts argsort -> List.Forall Q w -> List.Forall Q (in_order argsort w).
Proof.
  intros argsort w Q S F. rewrite Forall_forall in *. intros x X. apply F. eapply Permutation_in; [now apply in_order_perm|exact X].
Qed.
Lemma sorted_rev : forall (f : nat -> R) l, Sorted (fun i j => f i <= f j) l -> forall i j, (i < j < length l)%nat -> nth j (map f (rev l)) 0 <= nth i (map f (rev l)) 0.
Proof.
  intros f l S. apply Sorted_StronglySorted in S; [|intros a b c; lra].
  assert (G : forall i j, (i < j < length l)%nat -> f (nth i l 0%nat) <= f (nth j l 0%nat)).
  { induction S as [|a l S IH F]; intros i j J; [cbn in J; lia|]. cbn [length] in J. destruct j as [|j]; [lia|]. destruct i as [|i]; cbn [nth].
    - rewrite Forall_forall in F. apply F. apply nth_In. lia.
    - apply IH. lia. }
  intros i j J. rewrite !(nth_indep _ 0 (f 0%nat)) by (rewrite map_length, rev_length; lia). rewrite !map_nth, !rev_nth by lia. apply G. lia.
Qed.
Lemma in_order_down : forall argsort w, sorts argsort -> forall i j, (i < j < length w)%nat -> nth j (in_order argsort w) 0 <= nth i (in_order argsort w) 0.
Proof.
  intros argsort w S i j J. unfold in_order, order. apply sorted_rev; [apply S|]. now rewrite sorts_length.
Qed.
Lemma in_order_max : forall argsort w x, sorts argsort -> In x w -> x <= nth 0 (in_order argsort w) 0.
Proof.
  intros argsort w x S I. apply (Permutation_in x (Permutation_sym (in_order_perm argsort w S))) in I.
  destruct (In_nth _ _ 0 I) as [[|i] [L <-]]; [lra|]. rewrite in_order_length in L by exact S. apply in_order_down; [exact S|lia].
Qed.
Lemma in_order_first : forall argsort w, sorts argsort -> weights_ok w -> 0 < nth 0 (in_order argsort w) 0.
Proof.
  intros argsort w S [F P]. apply Rnot_le_lt. intros N. assert (sumR w <= 0); [|lra].
  assert (A : forall l, List.Forall (fun x => x <= 0) l -> sumR l <= 0) by (induction 1; unfold sumR in *; cbn [fold_right]; lra).
  apply A. apply Forall_forall. intros x X. pose proof (in_order_max argsort w x S X). lra.
Qed.
Lemma in_order_sum : forall argsort w, sorts argsort -> sumR (in_order argsort w) = sumR w.
Proof. intros. now apply sumR_perm, in_order_perm. Qed.
Lemma in_order_nth : forall argsort w i, (i < length (order argsort w))%nat -> nth i (in_order argsort w) 0 = nth (nth i (order argsort w) 0%nat) w 0.
Proof.
  intros argsort w i I. unfold in_order. rewrite (nth_indep _ 0 (nth 0 w 0)) by now rewrite map_length. apply (map_nth (fun i => nth i w 0)).
Qed.

Lemma xcumsum_num : forall l s, xcumsum_from (Num s) (map Num l) = map Num (cumsum_from s l).
Proof. induction l as [|x l IH]; intros s; cbn [map xcumsum_from cumsum_from xadd]; [reflexivity|]. now rewrite IH. Qed.
Lemma ratio_num : forall n tot x, 0 < tot -> INR n * x < tot -> ratio n tot x = Num (lam n tot x).
Proof.
  intros n tot x T X. unfold ratio, xdiv, lam. rewrite (proj2 (Reqb_false tot 0)) by lra.
  assert (INR n * (x / tot) < 1). { unfold Rdiv. rewrite <- Rmult_assoc. apply Rmult_lt_reg_r with tot; [exact T|]. rewrite Rmult_assoc, Rinv_l by lra. lra. }
  rewrite (proj2 (Reqb_false _ 0)) by lra. reflexivity.
Qed.
Lemma lam_pos : forall n tot x, 0 < tot -> INR n * x < tot -> 0 <= x -> 0 <= lam n tot x /\ (0 < x <-> 0 < lam n tot x).
Proof.
  intros n tot x T X X0. assert (D : 0 < 1 - INR n * (x / tot)).
  { assert (INR n * (x / tot) < 1); [|lra]. unfold Rdiv. rewrite <- Rmult_assoc. apply Rmult_lt_reg_r with tot; [exact T|]. rewrite Rmult_assoc, Rinv_l by lra. lra. }
  assert (TI : 0 < / tot) by now apply Rinv_0_lt_compat. assert (DI : 0 < / (1 - INR n * (x / tot))) by now apply Rinv_0_lt_compat.
  unfold lam, Rdiv in *. destruct (Rle_lt_or_eq_dec 0 x X0) as [P|P].
  - assert (0 < x * / tot * / (1 - INR n * (x * / tot))) by (apply Rmult_lt_0_compat; [now apply Rmult_lt_0_compat|exact DI]). split; [lra|]. tauto.
  - rewrite <- P at 1 3 4. rewrite <- P at 1. rewrite !Rmult_0_l. split; [lra|]. split; lra.
Qed.

Section Prepared.
Variable argsort : list R -> list nat.
Hypothesis SO : sorts argsort.
Variable w : list R.
Hypothesis WO : weights_ok w.
Variable n : nat.
Hypothesis N1 : (1 <= n < length w)%nat.
Let ord := order argsort w.
Let sw := in_order argsort w.

Lemma prepwts_is : forall p0, prepwts argsort false p0 w =
  Ok (Pps (p_tab p0) (Some (Sampford (length w) (cumsum sw) ord 0 None)) (p_ratio p0), (map Z.of_nat ord, sw, sumR w)).
Proof.
  intros p0. unfold prepwts. destruct (length w) as [|k] eqn:L; [lia|]. rewrite <- L in *. unfold int_view, intp_of. unfold reverse_part. pose proof (sorts_length argsort w SO) as LA. rewrite (firstn_all2 (n := length w) (argsort w)) by lia.
  rewrite (skipn_all2 (n := length w) (argsort w)) by lia. rewrite app_nil_r. rewrite (firstn_all2 (rev (argsort w))) by (rewrite rev_length; lia).
  fold (order argsort w). fold ord. fold (in_order argsort w). change (map (fun i => nth i w 0) ord) with sw.
  rewrite cumsum_last by (intros K; apply (f_equal (@length R)) in K; unfold sw in K; rewrite in_order_length in K by exact SO; cbn [length] in K; lia).
  replace (sumR sw) with (sumR w) by (symmetry; now apply in_order_sum). reflexivity.
Qed.

Hypothesis NW : List.Forall (fun x => INR n * x < sumR w) w.
Definition lams : list R := map (lam n (sumR w)) sw.
Lemma ratios_is : map (ratio n (sumR w)) sw = map Num lams.
Proof.
  unfold lams. rewrite map_map. apply map_ext_in. intros x X. apply ratio_num; [apply WO|].
  rewrite Forall_forall in NW. apply NW. eapply Permutation_in; [apply (in_order_perm argsort w SO)|exact X].
Qed.
Lemma lams_length : length lams = length w.
Proof. unfold lams, sw. now rewrite map_length, in_order_length. Qed.
Definition ready (p : pps) : Prop :=
  p_sf p = Some (Sampford (length w) (cumsum sw) ord n (Some (map Num lams, map Num (cumsum lams)))).
Lemma prepratios_is : forall t rt, prepratios (Pps t (Some (Sampford (length w) (cumsum sw) ord 0 None)) rt) n sw (sumR w) =
  Ok (Pps t (Some (Sampford (length w) (cumsum sw) ord n (Some (map Num lams, map Num (cumsum lams))))) rt, map Num (cumsum lams)).
Proof.
  intros t rt. unfold prepratios. unfold sw at 1. rewrite in_order_length by exact SO. rewrite (proj2 (Nat.leb_gt _ _)) by lia.
  cbn [p_sf f_npopn]. unfold sw at 1. rewrite in_order_length by exact SO. rewrite (proj2 (Nat.ltb_ge _ _)) by lia.
  cbn [f_ratios]. rewrite (proj2 (Nat.eqb_neq n 0)) by lia. cbn [andb f_cumwts f_indices p_tab p_ratio]. rewrite ratios_is.
  unfold xcumsum. rewrite xcumsum_num. fold (cumsum lams).
  rewrite !firstn_all2 by (rewrite map_length, ?cumsum_length, lams_length; lia). reflexivity.
Qed.
Lemma prepared_is : forall p idx, prepared argsort false w n p idx -> ready p /\ idx = map Z.of_nat ord /\ init_sampler5tbl w = Some (p_tab p).
Proof.
  intros p idx [p0 [p1 [sorted [tot [cum [E0 [E1 E2]]]]]]]. rewrite prepwts_is in E1. injection E1 as <- <- <- <-.
  rewrite prepratios_is in E2. injection E2 as <- _. split; [reflexivity|]. split; [reflexivity|]. cbn [p_tab].
  unfold new_pps in E0. destruct (init_sampler5tbl w); [|discriminate]. injection E0 as <-. reflexivity.
Qed.
Lemma prepared_ok : exists p idx, prepared argsort false w n p idx.
Proof.
  assert (E : exists s, init_sampler5tbl w = Some s).
  { unfold init_sampler5tbl. rewrite rsum_is, (proj2 (Rleb_false (sumR w) 0)) by (destruct WO; lra). eexists. reflexivity. }
  destruct E as [s E]. unfold prepared. eexists. eexists. exists (Pps s None None). eexists. eexists. eexists. eexists.
  split; [unfold new_pps; rewrite E; reflexivity|]. split; [apply prepwts_is|]. cbn [p_tab p_ratio]. apply prepratios_is.
Qed.
Lemma sw_nonneg : List.Forall (fun x => 0 <= x) sw.
Proof. apply in_order_forall; [exact SO|apply WO]. Qed.
Lemma sw_small : List.Forall (fun x => INR n * x < sumR w) sw.
Proof. apply in_order_forall; [exact SO|exact NW]. Qed.
Lemma lams_nth : forall i, (i < length w)%nat -> nth i lams 0 = lam n (sumR w) (nth i sw 0).
Proof.
  intros i I. unfold lams. rewrite (nth_indep _ 0 (lam n (sumR w) 0)) by (rewrite map_length; unfold sw; rewrite in_order_length; [exact I|exact SO]). apply map_nth.
Qed.
Lemma lams_pos : forall i, (i < length w)%nat -> 0 <= nth i lams 0 /\ (0 < nth i sw 0 <-> 0 < nth i lams 0).
Proof.
  intros i I. rewrite lams_nth by exact I. assert (J : In (nth i sw 0) sw) by (apply nth_In; unfold sw; rewrite in_order_length; [exact I|exact SO]).
  apply lam_pos; [apply WO| |].
  - pose proof sw_small as S. rewrite Forall_forall in S. now apply S.
  - pose proof sw_nonneg as S. rewrite Forall_forall in S. now apply S.
Qed.
Lemma lams_nonneg : List.Forall (fun x => 0 <= x) lams.
Proof.
  apply Forall_forall. intros x X. destruct (In_nth _ _ 0 X) as [i [I <-]]. rewrite lams_length in I. now apply lams_pos.
Qed.
Lemma sw_first : 0 < nth 0 sw 0.
Proof. now apply in_order_first. Qed.
Lemma lams_first : 0 < nth 0 lams 0.
Proof. apply lams_pos; [lia|]. apply sw_first. Qed.
Lemma lams_sum_pos : 0 < sumR lams.
Proof.
  pose proof lams_first as F. pose proof lams_nonneg as N. destruct lams as [|x l]; [cbn in F; lra|]. cbn [nth] in F. inversion N as [|? ? _ N2]; subst.
  pose proof (sumR_nonneg l N2). change (sumR (x :: l)) with (x + sumR l). lra.
Qed.

(** A position that can be picked. *)
Definition fair (i : nat) : Prop := (i < length w)%nat /\ 0 < nth i sw 0.
Lemma first_fair : forall u, 0 <= u <= 1 -> fair (first_pick (cumsum sw) u).
Proof.
  intros u U. destruct (pick_positive sw u sw_nonneg sw_first U) as [A B]. unfold sw in A. rewrite in_order_length in A by exact SO. split; [exact A|exact B].
Qed.
Lemma ratio_fair : forall u, 0 <= u <= 1 -> fair (ratio_pick (map Num (cumsum lams)) u).
Proof.
  intros u U. rewrite ratio_pick_is by (intros K; pose proof lams_first as F; rewrite K in F; cbn in F; lra).
  destruct (pick_positive lams u lams_nonneg lams_first U) as [A B]. rewrite lams_length in A. split; [exact A|]. now apply (proj2 (lams_pos _ A)).
Qed.

Section Run.
Variable G : Type.
Variables source1 source2 : G -> G * res R.
Variable Inv : G -> Prop.
Hypothesis H1 : forall g, Inv g -> exists g' u, source1 g = (g', Ok u) /\ Inv g' /\ 0 <= u <= 1.
Hypothesis H2 : forall g, Inv g -> exists g' u, source2 g = (g', Ok u) /\ Inv g' /\ 0 <= u <= 1.
Lemma existsb_in : forall i l, existsb (Nat.eqb i) l = false -> ~ In i l.
Proof. intros i l E I. assert (existsb (Nat.eqb i) l = true); [|congruence]. apply existsb_exists. exists i. split; [exact I|apply Nat.eqb_refl]. Qed.
Lemma more_picks_run : forall k sample g, Inv g -> NoDup sample -> List.Forall fair sample ->
  exists g' o, more_picks G source2 (map Num (cumsum lams)) k sample g = (g', Ok o) /\ Inv g' /\
    match o with None => True | Some s => length s = (length sample + k)%nat /\ NoDup s /\ List.Forall fair s end.
Proof.
  induction k as [|k IH]; intros sample g I ND F; cbn [more_picks].
  - exists g, (Some sample). split; [reflexivity|]. split; [exact I|]. split; [lia|]. split; [exact ND|exact F].
  - destruct (H2 g I) as [g1 [u [E [I1 U]]]]. unfold bind. rewrite E. set (i := ratio_pick _ u).
    destruct (existsb (Nat.eqb i) sample) eqn:X.
    + exists g1, None. split; [reflexivity|]. split; [exact I1|exact Logic.I].
    + apply existsb_in in X. destruct (IH (sample ++ [i]) g1 I1) as [g2 [o [E2 [I2 S]]]].
      * apply NoDup_rev in ND. rewrite <- (rev_involutive (sample ++ [i])). apply NoDup_rev. rewrite rev_app_distr. cbn [rev app]. constructor; [now rewrite <- in_rev|exact ND].
      * apply Forall_app. split; [exact F|]. constructor; [now apply ratio_fair|constructor].
      * exists g2, o. split; [exact E2|]. split; [exact I2|]. destruct o; [|exact Logic.I]. rewrite app_length in S. cbn [length] in S. destruct S as [S1 S2]. split; [lia|exact S2].
Qed.
Lemma sampford_run : forall fuel ntry g g' r, Inv g -> sampford_loop G source1 source2 (cumsum sw) (map Num (cumsum lams)) n fuel ntry g = (g', r) ->
  Inv g' /\ (r = Err OutOfFuel \/ exists tries s, r = Ok (tries, s) /\ (ntry < tries <= ntry + fuel)%nat /\ length s = n /\ NoDup s /\ List.Forall fair s).
Proof.
  induction fuel as [|fuel IH]; intros ntry g g' r I H.
  - injection H as <- <-. split; [exact I|now left].
  - cbn [sampford_loop] in H. unfold bind in H. destruct (H1 g I) as [g1 [u [E [I1 U]]]]. rewrite E in H.
    destruct (more_picks_run (n - 1) [first_pick (cumsum sw) u] g1 I1) as [g2 [o [E2 [I2 S]]]].
    { constructor; [intros []|constructor]. }
    { constructor; [now apply first_fair|constructor]. }
    rewrite E2 in H. destruct o as [s|].
    + injection H as <- <-. split; [exact I2|right]. exists (Datatypes.S ntry), s. cbn [length] in S. destruct S as [S1 S2]. split; [reflexivity|]. split; [lia|]. split; [lia|exact S2].
    + destruct (IH (Datatypes.S ntry) g2 g' r I2 H) as [I' [R|[tries [s [R [T S']]]]]]; (split; [exact I'|]); [now left|right]. exists tries, s. split; [exact R|]. split; [lia|exact S'].
Qed.
End Run.
End Prepared.

Lemma NoDup_nth_map : forall (l : list nat) s, NoDup l -> NoDup s -> List.Forall (fun i => (i < length l)%nat) s -> NoDup (map (fun i => nth i l 0%nat) s).
Proof.
  intros l s L ND F. induction ND as [|i s N ND IH]; [constructor|]. inversion F as [|? ? A B]; subst. cbn [map]. constructor; [|now apply IH].
  intros I. apply in_map_iff in I. destruct I as [k [E K]]. rewrite Forall_forall in B. specialize (B k K).
  assert (k = i) by (apply (proj1 (NoDup_nth l 0%nat) L); assumption). subst. contradiction.
Qed.
Lemma members_order : forall l s, List.Forall (fun i => (i < length l)%nat) s -> members (map Z.of_nat l) s = map Z.of_nat (map (fun i => nth i l 0%nat) s).
Proof.
  intros l s F. unfold members. rewrite map_map. apply map_ext_in. intros i I. rewrite Forall_forall in F.
  rewrite (nth_indep _ (-1)%Z (Z.of_nat 0)) by (rewrite map_length; now apply F). now rewrite map_nth.
Qed.
Lemma right_items : forall w n s, length s = n -> NoDup s -> List.Forall (fun i => (i < length w)%nat /\ 0 < nth i w 0) s -> right_sample w n (map Z.of_nat s).
Proof.
  intros w n s L ND F. split; [now rewrite map_length|]. split.
  - apply FinFun.Injective_map_NoDup; [|exact ND]. intros a b E. lia.
  - rewrite Forall_forall in *. intros x X. apply in_map_iff in X. destruct X as [i [<- I]]. rewrite Nat2Z.id. specialize (F i I). split; [lia|apply F].
Qed.
Lemma order_item : forall argsort w i, sorts argsort -> (i < length w)%nat -> (nth i (order argsort w) 0 < length w)%nat.
Proof.
  intros argsort w i S I. assert (J : In (nth i (order argsort w) 0%nat) (order argsort w)) by (apply nth_In; now rewrite order_length).
  apply (Permutation_in _ (order_perm argsort w S)) in J. apply in_seq in J. lia.
Qed.
Lemma right_members : forall argsort w n s, sorts argsort -> length s = n -> NoDup s -> List.Forall (fair argsort w) s ->
  right_sample w n (members (map Z.of_nat (order argsort w)) s).
Proof.
  intros argsort w n s S L ND F.
  assert (F1 : List.Forall (fun i => (i < length (order argsort w))%nat) s) by (eapply Forall_impl; [|exact F]; intros i [A _]; now rewrite order_length).
  rewrite members_order by exact F1. apply right_items; [now rewrite map_length| |].
  - apply NoDup_nth_map; [|exact ND|exact F1]. eapply Permutation_NoDup; [symmetry; now apply order_perm|apply seq_NoDup].
  - rewrite Forall_forall in *. intros x X. apply in_map_iff in X. destruct X as [i [<- I]]. destruct (F i I) as [A B].
    split; [now apply order_item|]. rewrite <- in_order_nth; [exact B|now rewrite order_length].
Qed.

Theorem samplenr_right : forall argsort w n p idx C rand m fuel g c s' r,
  sorts argsort -> weights_ok w -> (1 <= n < length w)%nat -> List.Forall (fun x => INR n * x < sumR w) w ->
  prepared argsort false w n p idx -> rand_below rand m -> good g ->
  samplenr C rand m fuel p (g, c) = (s', r) ->
  r = Err OutOfFuel \/ exists tries s, r = Ok (tries, s) /\ (1 <= tries <= fuel)%nat /\ List.Forall (fun i => (i < length w)%nat) s /\ right_sample w n (members idx s).
Proof.
  intros argsort w n p idx C rand m fuel g c s' r SO WO N1 NW PR RB G H.
  destruct (prepared_is argsort SO w WO n N1 NW p idx PR) as [Rd [-> _]]. unfold samplenr, samplenr_from in H. rewrite Rd in H. cbn [f_ratios f_nsamp f_cumwts] in H.
  destruct n as [|n']; [lia|]. set (n := S n') in *.
  assert (S1 : forall s : rk * C, good (fst s) -> exists s' u, on_rk C rk_double s = (s', Ok u) /\ good (fst s') /\ 0 <= u <= 1).
  { intros [g1 c1] G1. destruct (double_is g1 G1) as [g2 [a [b [u [_ [G2 [E [_ U]]]]]]]]. exists (g2, c1), u. unfold on_rk. cbn [fst snd] in *. rewrite E. split; [reflexivity|]. split; [exact G2|lra]. }
  assert (S2 : forall s : rk * C, good (fst s) -> exists s' u, crand C rand m s = (s', Ok u) /\ good (fst s') /\ 0 <= u <= 1).
  { intros [g1 c1] G1. unfold crand. cbn [fst snd]. specialize (RB c1). destruct (rand c1) as [c2 k]. cbn [snd] in RB. exists (g1, c2), (IZR k / IZR m). split; [reflexivity|]. split; [exact G1|].
    assert (0 < IZR m) by (apply IZR_lt; lia). assert (0 <= IZR k <= IZR m) by (split; apply IZR_le; lia). split.
    + apply Rmult_le_pos; [lra|]. left. now apply Rinv_0_lt_compat.
    + apply Rmult_le_reg_r with (IZR m); [lra|]. unfold Rdiv. rewrite Rmult_assoc, Rinv_l by lra. lra. }
  destruct (sampford_run argsort SO w WO n N1 NW (rk * C) _ _ (fun s => good (fst s)) S1 S2 fuel 0 (g, c) s' r G H) as [_ [R|[tries [s [R [T [L [ND F]]]]]]]].
  - now left.
  - right. exists tries, s. split; [exact R|]. split; [lia|]. split; [eapply Forall_impl; [|exact F]; intros i [A _]; exact A|]. now apply right_members.
Qed.
