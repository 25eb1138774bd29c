(** The rules on rectangles and the class NormWtCub2D. *)

From Coq Require Import List Bool Arith ZArith Reals Lra Lia String.
From Verif Require Import Exn Instances CountSpec CountLemmas McModel BaModel BaLemmas CubTables CubModel CubSpec CubLemmas CubLemmas2 CubLemmas3.
Import ListNotations.
Open Scope R_scope.

Lemma between : forall g l u, -1 <= g <= 1 -> Rmin l u <= / 2 * (u + l) + / 2 * (u - l) * g <= Rmax l u.
Proof. intros g l u H. unfold Rmin, Rmax. destruct (Rle_dec l u); split; nra. Qed.
Lemma inside : forall g l u, -1 < g < 1 -> l < u -> l < / 2 * (u + l) + / 2 * (u - l) * g < u.
Proof. intros g l u H L. split; nra. Qed.
Lemma reach : forall l u, Rabs (/ 2 * (u + l)) + Rabs (/ 2 * (u - l)) = Rmax (Rabs l) (Rabs u).
Proof.
  intros l u. unfold Rabs, Rmax. destruct (Rcase_abs (/ 2 * (u + l))), (Rcase_abs (/ 2 * (u - l))), (Rcase_abs l), (Rcase_abs u);
    match goal with |- context [Rle_dec ?a ?b] => destruct (Rle_dec a b) end; lra.
Qed.

(** Nodes of a rule as points *)
Definition gdbl (z : Z) : Prop := -1 < fx z < 1.
Lemma g_range : forall z, (Z.abs z <? U = true)%Z -> -1 < fx z < 1.
Proof.
  intros z H. apply Z.ltb_lt in H. rewrite fx_U. assert (P := U_pos). assert (A : (- U < z)%Z) by lia. assert (B : (z < U)%Z) by lia. apply IZR_lt in A, B. rewrite opp_IZR in A.
  split; [apply Rmult_lt_reg_r with (IZR U)|apply Rmult_lt_reg_r with (IZR U)]; unfold Rdiv; try rewrite Rmult_assoc, Rinv_l; lra.
Qed.

Section Rect.
Variable f : R -> R -> res R.
Variable p : R -> R -> R.
Variables xm ym hx hy : R.

Lemma axes_ok : forall g, (forall s, s = g \/ s = - g \/ s = 0 -> forall t, t = g \/ t = - g \/ t = 0 -> f (xm + hx * s) (ym + hy * t) = Ok (p (xm + hx * s) (ym + hy * t))) ->
  on_axes f (g * hx) (g * hy) xm ym = Ok (p (xm + hx * g) (ym + hy * 0) + p (xm + hx * - g) (ym + hy * 0) + p (xm + hx * 0) (ym + hy * g) + p (xm + hx * 0) (ym + hy * - g)).
Proof.
  intros g H. unfold on_axes. replace (g * hx + xm) with (xm + hx * g) by ring. replace (- (g * hx) + xm) with (xm + hx * - g) by ring. replace (g * hy + ym) with (ym + hy * g) by ring. replace (- (g * hy) + ym) with (ym + hy * - g) by ring.
  assert (Ex : xm = xm + hx * 0) by ring. assert (Ey : ym = ym + hy * 0) by ring.
  assert (F1 := H g ltac:(tauto) 0 ltac:(tauto)). assert (F2 := H (- g) ltac:(tauto) 0 ltac:(tauto)). assert (F3 := H 0 ltac:(tauto) g ltac:(tauto)). assert (F4 := H 0 ltac:(tauto) (- g) ltac:(tauto)).
  rewrite <- Ey in F1, F2. rewrite <- Ex in F3, F4. rewrite F1, F2, F3, F4. rewrite <- Ex, <- Ey. reflexivity.
Qed.
Lemma diagonals_ok : forall g, (forall s, s = g \/ s = - g \/ s = 0 -> forall t, t = g \/ t = - g \/ t = 0 -> f (xm + hx * s) (ym + hy * t) = Ok (p (xm + hx * s) (ym + hy * t))) ->
  on_diagonals f (g * hx) (g * hy) xm ym = Ok (p (xm + hx * g) (ym + hy * g) + p (xm + hx * g) (ym + hy * - g) + p (xm + hx * - g) (ym + hy * g) + p (xm + hx * - g) (ym + hy * - g)).
Proof.
  intros g H. unfold on_diagonals. replace (g * hx + xm) with (xm + hx * g) by ring. replace (- (g * hx) + xm) with (xm + hx * - g) by ring. replace (g * hy + ym) with (ym + hy * g) by ring. replace (- (g * hy) + ym) with (ym + hy * - g) by ring.
  now rewrite !H by tauto.
Qed.
End Rect.

Definition r3 : list node := map fnode sq3.
Definition r7 : list node := map fnode sq7.
Lemma r3_sum : forall (g : R -> R -> R), rule_sum r3 g = g (fx gen_3d4pt) 0 + g (- fx gen_3d4pt) 0 + g 0 (fx gen_3d4pt) + g 0 (- fx gen_3d4pt).
Proof. intros g. unfold r3, sq3. cbn [map fnode fst snd rule_sum]. rewrite !fx_opp, !fx_zero, !fx_one. ring. Qed.
Lemma r7_sum : forall (g : R -> R -> R), rule_sum r7 g =
  let a := fx 925820099772551461566566776583999 in let b := fx 380554433208315656379106359086394 in let c := fx 805979782918598743707856181350744 in
  fx 241975308641975308641975308641975 * (g a 0 + g (- a) 0 + g 0 a + g 0 (- a)) +
  fx 520592916667394457139919432046731 * (g b b + g b (- b) + g (- b) b + g (- b) (- b)) +
  fx 237431774690630234218105259311293 * (g c c + g c (- c) + g (- c) c + g (- c) (- c)).
Proof.
  intros g. unfold r7, sq7, axes, diagonals. cbn [app map fnode fst snd rule_sum]. rewrite !fx_opp, !fx_zero. cbv zeta. ring.
Qed.

Lemma all_between : forall (P : R -> Prop) z, (Z.abs z <? U = true)%Z -> (forall g, -1 < g < 1 -> P g) -> forall s, s = fx z \/ s = - fx z \/ s = 0 -> P s.
Proof. intros P z H HP s [->|[->| ->]]; apply HP; assert (R := g_range z H); lra. Qed.

Lemma rect3_sum : forall f p xl xu yl yu,
  (forall s t, -1 < s < 1 -> -1 < t < 1 -> f (/ 2 * (xu + xl) + / 2 * (xu - xl) * s) (/ 2 * (yu + yl) + / 2 * (yu - yl) * t) = Ok (p (/ 2 * (xu + xl) + / 2 * (xu - xl) * s) (/ 2 * (yu + yl) + / 2 * (yu - yl) * t))) ->
  rect3d4pt f (xl, xu) (yl, yu) = Ok (rule_sum r3 (fun s t => p (/ 2 * (xu + xl) + / 2 * (xu - xl) * s) (/ 2 * (yu + yl) + / 2 * (yu - yl) * t)) * (/ 2 * (xu - xl)) * (/ 2 * (yu - yl))).
Proof.
  intros f p xl xu yl yu H. unfold rect3d4pt. assert (G := g_range gen_3d4pt eq_refl).
  rewrite (axes_ok f p (/ 2 * (xu + xl)) (/ 2 * (yu + yl)) (/ 2 * (xu - xl)) (/ 2 * (yu - yl)) (fx gen_3d4pt)).
  - rewrite r3_sum. reflexivity.
  - intros s Hs t Ht. apply H; [destruct Hs as [->|[->| ->]]|destruct Ht as [->|[->| ->]]]; lra.
Qed.
Lemma rect7_sum : forall f p xl xu yl yu,
  (forall s t, -1 < s < 1 -> -1 < t < 1 -> f (/ 2 * (xu + xl) + / 2 * (xu - xl) * s) (/ 2 * (yu + yl) + / 2 * (yu - yl) * t) = Ok (p (/ 2 * (xu + xl) + / 2 * (xu - xl) * s) (/ 2 * (yu + yl) + / 2 * (yu - yl) * t))) ->
  rect7d12pt f (xl, xu) (yl, yu) = Ok (rule_sum r7 (fun s t => p (/ 2 * (xu + xl) + / 2 * (xu - xl) * s) (/ 2 * (yu + yl) + / 2 * (yu - yl) * t)) * (/ 2 * (xu - xl)) * (/ 2 * (yu - yl))).
Proof.
  intros f p xl xu yl yu H. unfold rect7d12pt. unfold rd, gen_7d12pt. cbn [nth_error fst snd].
  assert (G1 := g_range 925820099772551461566566776583999 eq_refl). assert (G2 := g_range 380554433208315656379106359086394 eq_refl). assert (G3 := g_range 805979782918598743707856181350744 eq_refl).
  assert (X : forall g, -1 < g < 1 -> forall s, s = g \/ s = - g \/ s = 0 -> forall t, t = g \/ t = - g \/ t = 0 ->
    f (/ 2 * (xu + xl) + / 2 * (xu - xl) * s) (/ 2 * (yu + yl) + / 2 * (yu - yl) * t) = Ok (p (/ 2 * (xu + xl) + / 2 * (xu - xl) * s) (/ 2 * (yu + yl) + / 2 * (yu - yl) * t))).
  { intros g Hg s Hs t Ht. apply H; [destruct Hs as [->|[->| ->]]|destruct Ht as [->|[->| ->]]]; lra. }
  rewrite (axes_ok f p _ _ _ _ _ (X _ G1)), (diagonals_ok f p _ _ _ _ _ (X _ G2)), (diagonals_ok f p _ _ _ _ _ (X _ G3)).
  rewrite r7_sum. reflexivity.
Qed.

Lemma scaled_bound : forall r S eps h1 h2 B, Rabs (r - S) <= eps * B -> Rabs (r * h1 * h2 - h1 * h2 * S) <= eps * (Rabs h1 * Rabs h2) * B.
Proof.
  intros r S eps h1 h2 B H. replace (r * h1 * h2 - h1 * h2 * S) with ((h1 * h2) * (r - S)) by ring. rewrite !Rabs_mult.
  replace (eps * (Rabs h1 * Rabs h2) * B) with (Rabs h1 * Rabs h2 * (eps * B)) by ring. apply Rmult_le_compat_l; [apply Rmult_le_pos; apply Rabs_pos|exact H].
Qed.
Lemma e32 : / IZR (10 ^ 32) = / 10 ^ 32.
Proof. f_equal. change 32%Z with (Z.of_nat 32). rewrite <- pow_IZR. reflexivity. Qed.

Lemma rect3_exact : forall f c xl xu yl yu,
  (forall x y, Rmin xl xu <= x <= Rmax xl xu -> Rmin yl yu <= y <= Rmax yl yu -> f x y = Ok (poly 3 c x y)) ->
  exists v, rect3d4pt f (xl, xu) (yl, yu) = Ok v /\
    Rabs (v - integral (poly 3 c) xl xu yl yu) <= / 10 ^ 32 * (Rabs (/ 2 * (xu - xl)) * Rabs (/ 2 * (yu - yl))) * size 3 c (Rmax (Rabs xl) (Rabs xu)) (Rmax (Rabs yl) (Rabs yu)).
Proof.
  intros f c xl xu yl yu H. eexists. split; [apply (rect3_sum f (poly 3 c)); intros s t Hs Ht; apply H; apply between; lra|].
  rewrite integral_poly. rewrite <- !reach. apply scaled_bound. rewrite <- e32.
  apply (rule_poly r3 um um (/ IZR (10 ^ 32)) 3). exact (square_moments sq3 3 (10 ^ 32) sq3_ok eq_refl).
Qed.
Lemma rect7_exact : forall f c xl xu yl yu,
  (forall x y, Rmin xl xu <= x <= Rmax xl xu -> Rmin yl yu <= y <= Rmax yl yu -> f x y = Ok (poly 7 c x y)) ->
  exists v, rect7d12pt f (xl, xu) (yl, yu) = Ok v /\
    Rabs (v - integral (poly 7 c) xl xu yl yu) <= / 10 ^ 32 * (Rabs (/ 2 * (xu - xl)) * Rabs (/ 2 * (yu - yl))) * size 7 c (Rmax (Rabs xl) (Rabs xu)) (Rmax (Rabs yl) (Rabs yu)).
Proof.
  intros f c xl xu yl yu H. eexists. split; [apply (rect7_sum f (poly 7 c)); intros s t Hs Ht; apply H; apply between; lra|].
  rewrite integral_poly. rewrite <- !reach. apply scaled_bound. rewrite <- e32.
  apply (rule_poly r7 um um (/ IZR (10 ^ 32)) 7). exact (square_moments sq7 7 (10 ^ 32) sq7_ok eq_refl).
Qed.
(** The nodes lie inside. *)
Lemma rect_inside : forall f xl xu yl yu, xl < xu -> yl < yu -> (forall x y, xl < x < xu -> yl < y < yu -> exists v, f x y = Ok v) ->
  (exists v, rect3d4pt f (xl, xu) (yl, yu) = Ok v) /\ (exists v, rect7d12pt f (xl, xu) (yl, yu) = Ok v).
Proof.
  intros f xl xu yl yu HX HY H.
  set (p := fun x y => match f x y with Ok v => v | Err _ => 0 end).
  assert (X : forall s t, -1 < s < 1 -> -1 < t < 1 -> f (/ 2 * (xu + xl) + / 2 * (xu - xl) * s) (/ 2 * (yu + yl) + / 2 * (yu - yl) * t) = Ok (p (/ 2 * (xu + xl) + / 2 * (xu - xl) * s) (/ 2 * (yu + yl) + / 2 * (yu - yl) * t))).
  { intros s t Hs Ht. unfold p. destruct (H _ _ (inside s xl xu Hs HX) (inside t yl yu Ht HY)) as [v ->]. reflexivity. }
  split; eexists; [apply (rect3_sum f p)|apply (rect7_sum f p)]; exact X.
Qed.

(** Squares *)
Lemma square_rect3 : forall f, rect3d4pt f (-1, 1) (-1, 1) = square3d4pt f.
Proof.
  intros f. unfold rect3d4pt, square3d4pt. replace (/ 2 * (1 + -1)) with 0 by lra. replace (/ 2 * (1 - -1)) with 1 by lra. rewrite !Rmult_1_r.
  destruct (on_axes f (fx gen_3d4pt) (fx gen_3d4pt) 0 0); [now rewrite !Rmult_1_r|reflexivity].
Qed.
Lemma square_rect7 : forall f, rect7d12pt f (-1, 1) (-1, 1) = square7d12pt f.
Proof.
  intros f. unfold rect7d12pt, square7d12pt. replace (/ 2 * (1 + -1)) with 0 by lra. replace (/ 2 * (1 - -1)) with 1 by lra. unfold rd, gen_7d12pt. cbn [nth_error fst snd]. rewrite !Rmult_1_r.
  repeat match goal with |- context [match ?m with Ok _ => _ | Err _ => _ end] => destruct m; [|reflexivity] end. now rewrite !Rmult_1_r.
Qed.
Lemma square1_exact : forall f c, (forall x y, -1 <= x <= 1 -> -1 <= y <= 1 -> f x y = Ok (poly 1 c x y)) -> square1d4pt f = Ok (integral (poly 1 c) (-1) 1 (-1) 1).
Proof.
  intros f c H. unfold square1d4pt. rewrite !H by lra. f_equal. rewrite integral_poly. unfold poly, spread, bco, um, sum_over, C. cbn [seq map Nat.sub sumR fold_right pow fact Nat.mul Nat.add INR]. field.
Qed.
