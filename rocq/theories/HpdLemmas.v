(** Proofs about the quadrature routines. *)

From Coq Require Import ZArith String List Bool Arith Lia Reals Lra Psatz.
From Coquelicot Require Import Coquelicot.
From Verif Require Import Exn PieModel Instances MinModel MinSpec HpdModel HpdSpec RefLemmas.
Import ListNotations.
Open Scope R_scope.

(** ** One cell *)
Lemma is_RInt_line : forall a b s t, is_RInt (line a b) s t ((a * t + t ^ 2 * (b - a) / 2) - (a * s + s ^ 2 * (b - a) / 2)).
Proof.
  intros a b s t.
  apply (is_RInt_derive (fun t => a * t + t ^ 2 * (b - a) / 2) (line a b) s t).
  - intros x _. unfold line. auto_derive; [exact I|field].
  - intros x _. unfold line. apply (ex_derive_continuous (fun t => a + t * (b - a))). auto_derive. exact I.
Qed.

Lemma RInt_is : forall (f : R -> R) (a b v w : R), is_RInt f a b v -> v = w -> RInt f a b = w :> R.
Proof. intros f a b v w H <-. exact (is_RInt_unique f a b v H). Qed.
Lemma RInt_line : forall a b, RInt (line a b) 0 1 = (a + b) / 2.
Proof. intros a b. apply (RInt_is _ _ _ _ _ (is_RInt_line a b 0 1)). field. Qed.

Definition cut (a b c t : R) : R := if Rlt_dec c (line a b t) then line a b t else 0.

Lemma cut_on : forall a b c s t, s <= t -> (forall x, s < x < t -> c < line a b x) ->
  is_RInt (cut a b c) s t ((a * t + t ^ 2 * (b - a) / 2) - (a * s + s ^ 2 * (b - a) / 2)).
Proof.
  intros a b c s t Hst H. apply (is_RInt_ext (line a b)); [|apply is_RInt_line].
  intros x Hx. rewrite Rmin_left, Rmax_right in Hx by lra.
  unfold cut. destruct (Rlt_dec c (line a b x)); [reflexivity|]. exfalso. apply n. apply H. lra.
Qed.

Lemma cut_off : forall a b c s t, s <= t -> (forall x, s < x < t -> line a b x <= c) -> is_RInt (cut a b c) s t 0.
Proof.
  intros a b c s t Hst H. apply (is_RInt_ext (line 0 0)).
  - intros x Hx. rewrite Rmin_left, Rmax_right in Hx by lra.
    unfold cut. destruct (Rlt_dec c (line a b x)); [|change (line 0 0 x = 0 :> R); unfold line; ring]. exfalso. assert (line a b x <= c) by (apply H; lra). lra.
  - assert (E : (0 * t + t ^ 2 * (0 - 0) / 2) - (0 * s + s ^ 2 * (0 - 0) / 2) = 0) by field.
    pose proof (is_RInt_line 0 0 s t) as K. rewrite E in K. exact K.
Qed.

Lemma above_both : forall a b c, c < a -> c < b -> above a b c = (a + b) / 2.
Proof.
  intros a b c Ha Hb. unfold above.
  apply (RInt_is (cut a b c) 0 1 _ _ (cut_on a b c 0 1 ltac:(lra) ltac:(intros x Hx; unfold line; nra))). field.
Qed.
Lemma above_none : forall a b c, a <= c -> b <= c -> above a b c = 0.
Proof.
  intros a b c Ha Hb. unfold above.
  apply (RInt_is (cut a b c) 0 1 0); [|reflexivity]. apply cut_off; [lra|]. intros x Hx; unfold line; nra.
Qed.
Lemma above_rise : forall a b c, a <= c < b -> above a b c = 1/2 * (b + c) * (b - c) / (b - a).
Proof.
  intros a b c [Ha Hb]. unfold above.
  set (s := (c - a) / (b - a)).
  assert (Hs : s * (b - a) = c - a) by (unfold s; field; lra).
  assert (H0 : 0 <= s) by nra. assert (H1 : s <= 1) by nra.
  pose proof (is_RInt_Chasles _ _ _ _ _ _
    (cut_off a b c 0 s H0 ltac:(intros x Hx; unfold line; nra))
    (cut_on a b c s 1 H1 ltac:(intros x Hx; unfold line; nra))) as H.
  apply (RInt_is (cut a b c) 0 1 _ _ H). unfold plus; cbn. unfold s. field. lra.
Qed.
Lemma above_fall : forall a b c, b <= c < a -> above a b c = 1/2 * (a + c) * (a - c) / (a - b).
Proof.
  intros a b c [Hb Ha]. unfold above.
  set (s := (a - c) / (a - b)).
  assert (Hs : s * (a - b) = a - c) by (unfold s; field; lra).
  assert (H0 : 0 <= s) by nra. assert (H1 : s <= 1) by nra.
  pose proof (is_RInt_Chasles _ _ _ _ _ _
    (cut_on a b c 0 s H0 ltac:(intros x Hx; unfold line; nra))
    (cut_off a b c s 1 H1 ltac:(intros x Hx; unfold line; nra))) as H.
  apply (RInt_is (cut a b c) 0 1 _ _ H). unfold plus; cbn. unfold s. field. lra.
Qed.

(** Every case at once. *)
Lemma above_cases : forall a b c,
  (c < a /\ c < b /\ above a b c = (a + b) / 2) \/
  (a <= c /\ b <= c /\ above a b c = 0) \/
  (a <= c < b /\ above a b c = 1/2 * (b + c) * (b - c) / (b - a)) \/
  (b <= c < a /\ above a b c = 1/2 * (a + c) * (a - c) / (a - b)).
Proof.
  intros a b c. destruct (Rlt_dec c a) as [Ha|Ha]; destruct (Rlt_dec c b) as [Hb|Hb].
  - left. split; [exact Ha|]. split; [exact Hb|]. apply above_both; assumption.
  - right; right; right. split; [lra|]. apply above_fall; lra.
  - right; right; left. split; [lra|]. apply above_rise; lra.
  - right; left. split; [lra|]. split; [lra|]. apply above_none; lra.
Qed.

Lemma qgt_loop_region : forall crit l q, qgt_loop crit l q = q + region l crit.
Proof.
  intros crit l. induction l as [|a l IH]; intros q; [cbn; ring|].
  destruct l as [|b l']; [cbn; ring|].
  change (qgt_loop crit (a :: b :: l') q) with
    (qgt_loop crit (b :: l')
        (if Rltb crit a && Rltb crit b then q + 1/2 * (a + b)
         else if Rltb crit a || Rltb crit b then
           let hi := Rmax a b in let lo := Rmin a b in
           q + 1/2 * (hi + crit) * (hi - crit) / (hi - lo)
         else q)).
  change (region (a :: b :: l') crit) with (above a b crit + region (b :: l') crit).
  rewrite IH. rewrite <- Rplus_assoc. f_equal.
  destruct (above_cases a b crit) as [[Ha [Hb E]]|[[Ha [Hb E]]|[[H E]|[H E]]]]; rewrite E; cbv zeta.
  - rewrite (proj2 (Rltb_spec crit a) Ha), (proj2 (Rltb_spec crit b) Hb). cbn. field.
  - rewrite (proj2 (Rltb_false crit a)), (proj2 (Rltb_false crit b)) by lra. cbn. ring.
  - rewrite (proj2 (Rltb_false crit a)), (proj2 (Rltb_spec crit b)) by lra. cbn [andb orb].
    rewrite Rmax_right, Rmin_left by lra. reflexivity.
  - rewrite (proj2 (Rltb_spec crit a)), (proj2 (Rltb_false crit b)) by lra. cbn [andb orb].
    rewrite Rmax_left, Rmin_right by lra. reflexivity.
Qed.
Lemma qgt1d_region : forall l c, qgt1d l c = region l c.
Proof. intros. unfold qgt1d. rewrite qgt_loop_region. ring. Qed.

(** ** Order and size *)
Lemma above_anti : forall a b c c', 0 <= a -> 0 <= b -> c <= c' -> above a b c' <= above a b c.
Proof.
  intros a b c c' Ha Hb Hc.
  assert (P : forall lo hi x y, 0 <= lo -> lo <= x <= y -> y < hi ->
     1/2 * (hi + y) * (hi - y) / (hi - lo) <= 1/2 * (hi + x) * (hi - x) / (hi - lo)).
  { intros. apply Rmult_le_compat_r; [left; apply Rinv_0_lt_compat; lra|]. nra. }
  assert (Q : forall lo hi x, 0 <= lo -> lo <= x < hi -> 0 <= 1/2 * (hi + x) * (hi - x) / (hi - lo) <= (lo + hi) / 2).
  { intros. split.
    - apply Rmult_le_pos; [nra|left; apply Rinv_0_lt_compat; lra].
    - apply Rmult_le_reg_r with (hi - lo); [lra|].
      replace (1/2 * (hi + x) * (hi - x) / (hi - lo) * (hi - lo)) with (1/2 * (hi + x) * (hi - x)) by (field; lra).
      nra. }
  destruct (above_cases a b c) as [[A1 [B1 E1]]|[[A1 [B1 E1]]|[[H1 E1]|[H1 E1]]]];
  destruct (above_cases a b c') as [[A2 [B2 E2]]|[[A2 [B2 E2]]|[[H2 E2]|[H2 E2]]]];
  rewrite E1, E2; try lra;
  try (destruct (Q a b c' Ha ltac:(lra)); lra);
  try (destruct (Q b a c' Hb ltac:(lra)); lra);
  try (destruct (Q a b c Ha ltac:(lra)); lra);
  try (destruct (Q b a c Hb ltac:(lra)); lra).
  - apply P; lra.
  - apply P; lra.
Qed.

Lemma above_range : forall a b c, 0 <= a -> 0 <= b -> 0 <= above a b c <= (a + b) / 2.
Proof.
  intros a b c Ha Hb. split.
  - rewrite <- (above_none a b (Rmax c (Rmax a b))).
    + apply above_anti; [exact Ha|exact Hb|apply Rmax_l].
    + apply Rle_trans with (Rmax a b); [apply Rmax_l|apply Rmax_r].
    + apply Rle_trans with (Rmax a b); apply Rmax_r.
  - rewrite <- (above_both a b (Rmin c (Rmin a b - 1))).
    + apply above_anti; [exact Ha|exact Hb|apply Rmin_l].
    + apply Rle_lt_trans with (Rmin a b - 1); [apply Rmin_r|]. pose proof (Rmin_l a b). lra.
    + apply Rle_lt_trans with (Rmin a b - 1); [apply Rmin_r|]. pose proof (Rmin_r a b). lra.
Qed.

Lemma region_cons : forall a b l c, region (a :: b :: l) c = above a b c + region (b :: l) c.
Proof. reflexivity. Qed.
Lemma area_cons : forall a b l, area (a :: b :: l) = (a + b) / 2 + area (b :: l).
Proof. intros. change (area (a :: b :: l)) with (RInt (line a b) 0 1 + area (b :: l)). rewrite RInt_line. reflexivity. Qed.

Lemma region_anti : forall l c c', List.Forall (fun a => 0 <= a) l -> c <= c' -> region l c' <= region l c.
Proof.
  intros l c c' H Hc. induction l as [|a l IH]; [cbn; lra|]. destruct l as [|b l']; [cbn; lra|].
  inversion H as [|? ? Ha H']; subst. inversion H' as [|? ? Hb _]; subst.
  rewrite !region_cons. pose proof (above_anti a b c c' Ha Hb Hc). specialize (IH H'). lra.
Qed.
Lemma region_range : forall l c, List.Forall (fun a => 0 <= a) l -> 0 <= region l c <= area l.
Proof.
  intros l c H. induction l as [|a l IH]; [cbn; lra|]. destruct l as [|b l']; [cbn; lra|].
  inversion H as [|? ? Ha H']; subst. inversion H' as [|? ? Hb _]; subst.
  rewrite region_cons, area_cons. pose proof (above_range a b c Ha Hb). specialize (IH H'). lra.
Qed.
Lemma region_none : forall l c, List.Forall (fun a => a <= c) l -> region l c = 0.
Proof.
  intros l c H. induction l as [|a l IH]; [reflexivity|]. destruct l as [|b l']; [reflexivity|].
  inversion H as [|? ? Ha H']; subst. inversion H' as [|? ? Hb _]; subst.
  rewrite region_cons, above_none, IH by assumption. ring.
Qed.
Lemma region_all : forall l c, List.Forall (fun a => c < a) l -> region l c = area l.
Proof.
  intros l c H. induction l as [|a l IH]; [reflexivity|]. destruct l as [|b l']; [reflexivity|].
  inversion H as [|? ? Ha H']; subst. inversion H' as [|? ? Hb _]; subst.
  rewrite region_cons, area_cons, above_both, IH by assumption. ring.
Qed.
(** Also at the smallest value, unless the floor is flat. *)
Lemma region_floor : forall all l m, List.Forall (fun a => m <= a) l -> (forall x, In x all -> m <= x) ->
  no_flat_floor all l -> region l m = area l.
Proof.
  intros all l m H Hall HF. induction l as [|a l IH]; [reflexivity|]. destruct l as [|b l']; [reflexivity|].
  inversion H as [|? ? Ha H']; subst. inversion H' as [|? ? Hb _]; subst.
  rewrite region_cons, area_cons. rewrite IH; [|exact H'|].
  - f_equal. destruct (above_cases a b m) as [[A1 [B1 E1]]|[[A1 [B1 E1]]|[[H1 E1]|[H1 E1]]]]; rewrite E1.
    + reflexivity.
    + exfalso. destruct (HF 0%nat) as [x [Hx Hlt]]; [cbn; lia|cbn [nth]; lra|].
      cbn [nth] in Hlt. specialize (Hall x Hx). lra.
    + assert (a = m) by lra. subst. field. lra.
    + assert (b = m) by lra. subst. field. lra.
  - intros i Hi E. apply (HF (S i)); [cbn [length] in *; lia|exact E].
Qed.

(** Strictly less once something is at or below the level. *)
Lemma region_some : forall l c, List.Forall (fun a => 0 <= a) l -> (2 <= length l)%nat -> 
  (exists x, In x l /\ x < c) -> 0 < c -> List.Forall (fun a => 0 < a) l -> region l c < area l.
Proof.
  intros l c H Hlen [x [Hin Hx]] Hc Hpos.
  assert (P : forall a b, 0 < a -> 0 < b -> a < c \/ b < c -> above a b c < (a + b) / 2).
  { intros a b Ha Hb Hor.
    destruct (above_cases a b c) as [[A1 [B1 E1]]|[[A1 [B1 E1]]|[[H1 E1]|[H1 E1]]]]; rewrite E1.
    - lra.
    - lra.
    - apply Rmult_lt_reg_r with (b - a); [lra|].
      replace (1/2 * (b + c) * (b - c) / (b - a) * (b - a)) with (1/2 * (b + c) * (b - c)) by (field; lra). nra.
    - apply Rmult_lt_reg_r with (a - b); [lra|].
      replace (1/2 * (a + c) * (a - c) / (a - b) * (a - b)) with (1/2 * (a + c) * (a - c)) by (field; lra). nra. }
  clear H. induction l as [|a l IH]; [cbn in Hlen; lia|]. destruct l as [|b l']; [cbn in Hlen; lia|].
  inversion Hpos as [|? ? Ha H']; subst. inversion H' as [|? ? Hb Hl]; subst.
  rewrite region_cons, area_cons.
  assert (H0 : List.Forall (fun a => 0 <= a) (b :: l')).
  { eapply Forall_impl; [|exact H']. cbn. intros; lra. }
  pose proof (region_range (b :: l') c H0). pose proof (above_range a b c ltac:(lra) ltac:(lra)).
  destruct Hin as [->|[->|Hin]].
  - specialize (P x b Ha Hb (or_introl Hx)). lra.
  - specialize (P a x Ha Hb (or_intror Hx)). lra.
  - destruct l' as [|d l'']; [destruct Hin|].
    assert (region (b :: d :: l'') c < area (b :: d :: l'')) by (apply IH; [cbn; lia|right; exact Hin|exact H']). lra.
Qed.

(** ** Change of scale *)
Lemma above_scale : forall k a b c, 0 < k -> above (k * a) (k * b) (k * c) = k * above a b c.
Proof.
  intros k a b c Hk.
  destruct (above_cases a b c) as [[A1 [B1 E1]]|[[A1 [B1 E1]]|[[H1 E1]|[H1 E1]]]]; rewrite E1.
  - rewrite above_both by nra. field.
  - rewrite above_none by nra. ring.
  - rewrite above_rise by nra. field. nra.
  - rewrite above_fall by nra. field. nra.
Qed.
Lemma region_scale : forall k l c, 0 < k -> region (map (fun a => k * a) l) (k * c) = k * region l c.
Proof.
  intros k l c Hk. induction l as [|a l IH]; [cbn; ring|]. destruct l as [|b l']; [cbn; ring|].
  cbn [map]. cbn [map] in IH. rewrite !region_cons, above_scale, IH by assumption. ring.
Qed.
Lemma area_scale : forall k l, area (map (fun a => k * a) l) = k * area l.
Proof.
  intros k l. induction l as [|a l IH]; [cbn; ring|]. destruct l as [|b l']; [cbn; ring|].
  cbn [map]. cbn [map] in IH. rewrite !area_cons, IH. field.
Qed.
Lemma area_pos : forall l, List.Forall (fun a => 0 < a) l -> (2 <= length l)%nat -> 0 < area l.
Proof.
  intros l H Hlen. induction l as [|a l IH]; [cbn in Hlen; lia|]. destruct l as [|b l']; [cbn in Hlen; lia|].
  inversion H as [|? ? Ha H']; subst. inversion H' as [|? ? Hb Hl]; subst. rewrite area_cons.
  destruct l' as [|d l'']; [cbn; lra|].
  assert (0 < area (b :: d :: l'')) by (apply IH; [exact H'|cbn; lia]). lra.
Qed.
Lemma floor_scale : forall k all l, 0 < k -> no_flat_floor all l -> no_flat_floor (map (fun a => k * a) all) (map (fun a => k * a) l).
Proof.
  intros k all l Hk H i Hi E. rewrite map_length in Hi.
  assert (N : forall j, nth j (map (fun a => k * a) l) 0 = k * nth j l 0).
  { intros j. rewrite <- (map_nth (fun a => k * a)). replace (k * 0) with 0 by ring. reflexivity. }
  rewrite !N in E. destruct (H i Hi) as [x [Hx Hlt]]; [nra|].
  exists (k * x). split; [apply in_map_iff; exists x; split; [reflexivity|exact Hx]|]. rewrite N. nra.
Qed.

(** ** Two dimensions *)
Lemma qgt2_loop_tail : forall crit nx rows i q, (2 <= i)%nat -> nx = (i + length rows - 1)%nat -> rows <> [] ->
  qgt2_loop crit nx i rows q = q + area (map (fun r => region r crit) rows) + 1/2 * region (hd [] rows) crit.
Proof.
  intros crit nx rows. induction rows as [|r rows IH]; intros i q Hi Hn Hne; [contradiction|].
  cbn [qgt2_loop hd]. rewrite qgt_loop_region.
  replace (Nat.eqb i 1) with false by (symmetry; apply Nat.eqb_neq; lia). cbn [orb].
  destruct rows as [|r' rows'].
  - cbn [length] in Hn. replace (Nat.eqb i nx) with true by (symmetry; apply Nat.eqb_eq; lia).
    cbn [qgt2_loop]. cbn [map area]. ring.
  - cbn [length] in Hn. replace (Nat.eqb i nx) with false by (symmetry; apply Nat.eqb_neq; lia).
    rewrite IH by (cbn [length]; try lia; discriminate). cbn [map hd]. rewrite area_cons. cbn [map]. field.
Qed.
Lemma qgt2d_region : forall rows c, (2 <= length rows)%nat -> qgt2d rows c = region2 rows c.
Proof.
  intros rows c H. unfold qgt2d, region2. destruct rows as [|r rows]; [cbn in H; lia|].
  destruct rows as [|r' rows']; [cbn in H; lia|].
  remember (length (r :: r' :: rows')) as n eqn:En.
  cbn [qgt2_loop]. rewrite Nat.eqb_refl. cbn [orb].
  change (qgt2_loop c n 2 (r' :: rows') (0 + 1/2 * qgt_loop c r 0) = area (map (fun r0 => region r0 c) (r :: r' :: rows'))).
  rewrite qgt2_loop_tail; [|lia|rewrite En; cbn [length]; lia|discriminate].
  rewrite qgt_loop_region. cbn [map hd]. rewrite area_cons. field.
Qed.

Lemma area_mono : forall l l', Forall2 Rle l l' -> area l <= area l'.
Proof.
  intros l l' H. induction H as [|a a' l l' Ha H IH]; [cbn; lra|].
  destruct H as [|b b' l l' Hb H]; [cbn; lra|]. rewrite !area_cons. lra.
Qed.
