(** dcuhre in other units *)

From Coq Require Import List Bool Arith ZArith Reals Lra Lia.
From Verif Require Import Exn Instances McModel BaModel BaLemmas ObsModel AdModel AdSpec CubModel DcModel.
Import ListNotations.
Open Scope R_scope.

(** Two computations side by side *)
Definition rrel {A A'} (Q : A -> A' -> Prop) (r : res A) (r' : res A') : Prop :=
  match r, r' with Ok x, Ok x' => Q x x' | Err e, Err e' => e' = e | _, _ => False end.
Lemma bind_rel : forall A A' B B' (Q : A -> A' -> Prop) (Q' : B -> B' -> Prop) r r' g g', rrel Q r r' -> (forall x x', Q x x' -> rrel Q' (g x) (g' x')) ->
  rrel Q' (match r with Ok x => g x | Err e => Err e end) (match r' with Ok x => g' x | Err e => Err e end).
Proof. intros A A' B B' Q Q' [x|e] [x'|e'] g g' H G; cbn in *; auto; contradiction. Qed.
Lemma rrel_le : forall A A' (Q Q' : A -> A' -> Prop) r r', (forall x x', Q x x' -> Q' x x') -> rrel Q r r' -> rrel Q' r r'.
Proof. intros A A' Q Q' [x|e] [x'|e'] H R; cbn in *; auto. Qed.
Lemma iter_rel : forall S S' (Q : S -> S' -> Prop) l body body', (forall i s s', In i l -> Q s s' -> rrel Q (body i s) (body' i s')) -> forall s s', Q s s' -> rrel Q (iter l body s) (iter l body' s').
Proof.
  intros S S' Q. induction l as [|i l IH]; intros body body' H s s' Hs; cbn [iter]; [exact Hs|]. eapply bind_rel; [apply H; [now left|exact Hs]|]. intros u u' Hu. apply IH; [|exact Hu]. intros; apply H; [now right|assumption].
Qed.

(** Lists side by side *)
Definition lrel {A A'} (P : nat -> A -> A' -> Prop) (l : list A) (l' : list A') : Prop :=
  length l' = length l /\ forall i x x', nth_error l i = Some x -> nth_error l' i = Some x' -> P (S i) x x'.
Lemma rd1_rel : forall A A' (P : nat -> A -> A' -> Prop) l l' i, lrel P l l' -> rrel (P i) (rd1 l i) (rd1 l' i).
Proof.
  intros A A' P l l' [|i] [L H]; [reflexivity|]. cbn [rd1]. unfold rd. destruct (nth_error l i) as [x|] eqn:E, (nth_error l' i) as [x'|] eqn:E'; cbn [rrel]; [now apply H| | |reflexivity].
  - apply nth_error_None in E'. assert (nth_error l i <> None) by congruence. apply nth_error_Some in H0. lia.
  - apply nth_error_None in E. assert (nth_error l' i <> None) by congruence. apply nth_error_Some in H0. lia.
Qed.
Lemma nth_upd : forall A (l : list A) i v j, (i < length l)%nat -> nth_error (upd i v l) j = if Nat.eqb j i then Some v else nth_error l j.
Proof.
  intros A l i v j H. assert (R := rd_upd A i v l j H). unfold rd in R. destruct (Nat.eqb j i); [destruct (nth_error (upd i v l) j); congruence|]. destruct (nth_error (upd i v l) j), (nth_error l j); congruence.
Qed.
Lemma len_upd : forall A (l : list A) i v, (i < length l)%nat -> length (upd i v l) = length l.
Proof. intros A l i v H. unfold upd. rewrite app_length, firstn_length, Nat.min_l by lia. cbn [length]. rewrite skipn_length. lia. Qed.
Lemma wr1_rel' : forall A A' (P P' : nat -> A -> A' -> Prop) l l' i v v', lrel P l l' -> P' i v v' -> (forall k x x', k <> i -> P k x x' -> P' k x x') -> rrel (fun m m' => lrel P' m m' /\ length m = length l) (wr1 l i v) (wr1 l' i v').
Proof.
  intros A A' P P' l l' [|i] v v' [L H] V K; [reflexivity|]. cbn [wr1]. unfold wr. rewrite L. destruct (Nat.ltb_spec i (length l)); [|reflexivity]. cbn [rrel].
  split; [split; [rewrite !len_upd by lia; exact L|]|apply len_upd; lia]. intros j x x'. rewrite !nth_upd by lia. destruct (Nat.eqb_spec j i) as [->|N]; [intros E E'; injection E as <-; injection E' as <-; exact V|]. intros E E'. apply K; [lia|]. now apply H.
Qed.
Lemma wr1_rel : forall A A' (P : nat -> A -> A' -> Prop) l l' i v v', lrel P l l' -> P i v v' -> rrel (fun m m' => lrel P m m' /\ length m = length l) (wr1 l i v) (wr1 l' i v').
Proof. intros A A' P l l' i v v' H V. now apply (wr1_rel' _ _ P P). Qed.

(** Tests in other units *)
Lemma ltb_scale : forall c x y, 0 < c -> Rltb (c * x) (c * y) = Rltb x y.
Proof. intros c x y P. unfold Rltb. destruct (Rlt_dec (c * x) (c * y)) as [H|H], (Rlt_dec x y) as [H'|H']; try reflexivity; exfalso; [apply H'; apply (Rmult_lt_reg_l c); assumption|apply H; now apply Rmult_lt_compat_l]. Qed.
Lemma leb_scale : forall c x y, 0 < c -> Rleb (c * x) (c * y) = Rleb x y.
Proof. intros c x y P. unfold Rleb. destruct (Rle_dec (c * x) (c * y)) as [H|H], (Rle_dec x y) as [H'|H']; try reflexivity; exfalso; [apply H'; apply (Rmult_le_reg_l c); assumption|apply H; apply Rmult_le_compat_l; [lra|assumption]]. Qed.
Lemma eqb_scale : forall c x y, c <> 0 -> Reqb (c * x) (c * y) = Reqb x y.
Proof. intros c x y P. unfold Reqb. destruct (Req_EM_T (c * x) (c * y)) as [H|H], (Req_EM_T x y) as [H'|H']; try reflexivity; exfalso; [apply H'; apply (Rmult_eq_reg_l c); assumption|apply H; now f_equal]. Qed.

Section Units.
Variable n : nat.
Variables s k : R.
Variable t : nat -> R.
Hypothesis s_pos : 0 < s.
Hypothesis k_not : k <> 0.
Variables f f' : list R -> vec.
Definition prel (x x' : list R) : Prop := length x = n /\ lrel (fun i a a' => a' = t i + s * a) x x'.
Definition hrel : list R -> list R -> Prop := lrel (fun _ a a' => a' = s * a).
Hypothesis same : forall x x', prel x x' -> forall j, f' x' j = k * f x j.
Lemma ak_pos : 0 < Rabs k.
Proof. now apply Rabs_pos_lt. Qed.
Lemma sn_pos : 0 < s ^ n.
Proof. now apply pow_lt. Qed.
Definition vrel (c : R) (v v' : vec) : Prop := forall j, v' j = c * v j.

Lemma prd : forall x x' i, prel x x' -> rrel (fun a a' => a' = t i + s * a) (rd1 x i) (rd1 x' i).
Proof. intros x x' i [_ H]. now apply (rd1_rel _ _ (fun i a a' => a' = t i + s * a)). Qed.
Lemma pwr : forall x x' i a a', prel x x' -> a' = t i + s * a -> rrel prel (wr1 x i a) (wr1 x' i a').
Proof.
  intros x x' i a a' [L H] E. eapply rrel_le; [|apply (wr1_rel _ _ (fun i a a' => a' = t i + s * a) x x' i a a' H E)]. intros m m' [M LM]. split; [congruence|exact M].
Qed.
Lemma hrd : forall x x' i, hrel x x' -> rrel (fun a a' => a' = s * a) (rd1 x i) (rd1 x' i).
Proof. intros x x' i H. exact (rd1_rel _ _ _ x x' i H). Qed.
Lemma hwr : forall x x' i a a', hrel x x' -> a' = s * a -> rrel hrel (wr1 x i a) (wr1 x' i a').
Proof. intros x x' i a a' H E. eapply rrel_le; [|apply (wr1_rel _ _ _ x x' i a a' H E)]. intros m m' [M _]. exact M. Qed.
Lemma same_rd : forall (g : list R) i, rrel (fun a a' => a' = a) (rd1 g i) (rd1 g i).
Proof. intros g i. destruct (rd1 g i); reflexivity. Qed.
Lemma same_wr : forall (g : list R) i v, rrel (fun a a' => a' = a) (wr1 g i v) (wr1 g i v).
Proof. intros g i v. destruct (wr1 g i v); reflexivity. Qed.

(** DFSHRE *)
Section Sums.
Variables c c' h h' : list R.
Hypothesis Hc : prel c c'.
Hypothesis Hh : hrel h h'.
(** Points that are not written yet: zeros, up to index m *)
Lemma point_rel : forall g, rrel prel (dfs_point n c h g) (dfs_point n c' h' g).
Proof.
  intros g. unfold dfs_point.
  assert (K : forall m i x x', (m + i = n)%nat -> length x = n -> lrel (fun j a a' => (j <= m)%nat -> a' = t j + s * a) x x' ->
    rrel prel (iter (seq (S m) i) (fun i x => let! c := rd1 c i in let! gi := rd1 g i in let! h := rd1 h i in wr1 x i (c + gi * h)) x) (iter (seq (S m) i) (fun i x => let! c := rd1 c' i in let! gi := rd1 g i in let! h := rd1 h' i in wr1 x i (c + gi * h)) x')).
  { intros m i. revert m. induction i as [|i IH]; intros m x x' E Lx H.
    - cbn [seq iter rrel]. split; [exact Lx|]. split; [apply H|]. intros j a a' Ha Ha'. apply (proj2 H j a a' Ha Ha'). assert (nth_error x j <> None) by congruence. apply nth_error_Some in H0. lia.
    - cbn [seq iter]. eapply (bind_rel _ _ _ _ (fun y y' => lrel (fun j a a' => (j <= S m)%nat -> a' = t j + s * a) y y' /\ length y = length x)).
      + eapply bind_rel; [now apply prd|]. intros a a' Ha. eapply bind_rel; [apply same_rd|]. intros b b' ->. eapply bind_rel; [now apply hrd|]. intros d d' Hd.
        eapply (wr1_rel' _ _ (fun j a a' => (j <= m)%nat -> a' = t j + s * a)); [exact H|intros _; rewrite Ha, Hd; ring|]. intros q y y' N Q Hq. apply Q. lia.
      + intros y y' [Hy Ly]. apply IH; [lia|congruence|exact Hy]. }
  apply (K O n); [lia|apply repeat_length|]. split; [reflexivity|]. intros; lia.
Qed.
Definition frel (r : bool * list R * list R) (r' : bool * list R * list R) : Prop := fst r' = fst r /\ prel (snd r) (snd r').
Lemma flip_rel : forall is g x x', prel x x' -> rrel frel (dfs_flip c h is g x) (dfs_flip c' h' is g x').
Proof.
  induction is as [|i is IH]; intros g x x' Hx; cbn [dfs_flip]; [split; [reflexivity|exact Hx]|].
  eapply bind_rel; [apply same_rd|]. intros gi ? ->. eapply bind_rel; [apply same_wr|]. intros g2 ? ->. eapply bind_rel; [now apply prd|]. intros a a' Ha. eapply bind_rel; [now apply hrd|]. intros b b' Hb.
  eapply bind_rel; [apply (pwr x x' i); [exact Hx|rewrite Ha, Hb; ring]|]. intros y y' Hy. destruct (Rltb (- gi) 0); [split; [reflexivity|exact Hy]|]. now apply IH.
Qed.
Definition grel (r r' : list R * vec) : Prop := fst r' = fst r /\ vrel k (snd r) (snd r').
Lemma signs_rel : forall fuel g x x' v v', prel x x' -> vrel k v v' -> rrel grel (dfs_signs f n c h fuel g x v) (dfs_signs f' n c' h' fuel g x' v').
Proof.
  induction fuel as [|fuel IH]; intros g x x' v v' Hx Hv; cbn [dfs_signs]; [reflexivity|].
  eapply bind_rel; [apply flip_rel; exact Hx|]. intros [[b1 g1] x1] [[b2 g2] x2] [E Hy]. cbn [fst snd] in *. injection E as -> ->.
  assert (W : vrel k (fun j => v j + f x j) (fun j => v' j + f' x' j)) by (intros j; rewrite Hv, (same _ _ Hx); ring).
  destruct b1; [now apply IH|]. split; [reflexivity|exact W].
Qed.
Lemma perms_rel : forall fuel g v v', vrel k v v' -> rrel grel (dfs_perms f n c h fuel g v) (dfs_perms f' n c' h' fuel g v').
Proof.
  induction fuel as [|fuel IH]; intros g v v' Hv; cbn [dfs_perms]; [reflexivity|]. eapply bind_rel; [apply point_rel|]. intros x x' Hx. eapply bind_rel; [apply signs_rel; eassumption|]. intros [g1 v1] [g2 v2] [E Hw]. cbn [fst snd] in *. subst g2.
  destruct (dfs_next g1 (seq 2 (n - 1))) as [[g3|]|e]; [now apply IH|split; [reflexivity|exact Hw]|reflexivity].
Qed.
Lemma dfs_rel : forall g, rrel (fun r r' => vrel k (fst r) (fst r') /\ snd r' = snd r) (dfshre f n c h g) (dfshre f' n c' h' g).
Proof.
  intros g. unfold dfshre. eapply bind_rel; [apply perms_rel; intros j; ring|]. intros [g1 v1] [g2 v2] [E Hv]. cbn [fst snd] in *. subst g2. destruct (dfs_back n g1); [split; [exact Hv|reflexivity]|reflexivity].
Qed.
End Sums.

(** DRLHRE *)
Variable numfun : nat.
Variable tb : table.
Lemma volume_rel : forall h h', hrel h h' -> rrel (fun r r' => fst r' = s ^ n * fst r /\ snd r' = snd r) (drl_volume n h) (drl_volume n h').
Proof.
  intros h h' Hh. unfold drl_volume.
  assert (K : forall l m (st st' : R * nat), fst st' = s ^ m * fst st -> snd st' = snd st -> rrel (fun r r' => fst r' = s ^ (m + length l) * fst r /\ snd r' = snd r)
    (iter l (fun i st => let! x := rd1 h i in let! d := rd1 h (snd st) in Ok (fst st * x, if Rltb d x then i else snd st)) st) (iter l (fun i st => let! x := rd1 h' i in let! d := rd1 h' (snd st) in Ok (fst st * x, if Rltb d x then i else snd st)) st')).
  { induction l as [|i l IH]; intros m st st' E1 E2; cbn [iter length]; [rewrite Nat.add_0_r; split; assumption|]. rewrite E2.
    eapply (bind_rel _ _ _ _ (fun r r' : R * nat => fst r' = s ^ S m * fst r /\ snd r' = snd r)).
    - eapply bind_rel; [now apply hrd|]. intros a a' Ha. eapply bind_rel; [now apply hrd|]. intros b b' Hb. cbn [rrel fst snd]. rewrite Ha, Hb, E1, ltb_scale by assumption. split; [cbn [pow]; ring|reflexivity].
    - intros r r' [A B]. replace (m + S (length l))%nat with (S m + length l)%nat by lia. now apply IH. }
  assert (X := K (seq 1 n) O (1, 1%nat) (1, 1%nat)). rewrite seq_length in X. cbn [plus] in X. apply X; [cbn; ring|reflexivity].
Qed.
Definition arel (a a' : axes) : Prop := vrel k (x_bas a) (x_bas a') /\ (forall i, vrel k (x_null a i) (x_null a' i)) /\ x_difmax a' = Rabs k * x_difmax a /\ x_divaxn a' = x_divaxn a.
Lemma difsum_rel : forall l (v v' q q' : vec) d d', vrel k v v' -> vrel k q q' -> d' = Rabs k * d ->
  fold_left (fun s j => if Reqb (v' j + q' j / 4) (v' j) then s else s + Rabs (q' j)) l d' = Rabs k * fold_left (fun s j => if Reqb (v j + q j / 4) (v j) then s else s + Rabs (q j)) l d.
Proof.
  intros l v v' q q' d d' Hv Hq. revert d d'. induction l as [|j l IH]; intros d d' Hd; cbn [fold_left]; [exact Hd|]. apply IH. rewrite Hv, Hq. replace (k * v j + k * q j / 4) with (k * (v j + q j / 4)) by (unfold Rdiv; ring). rewrite eqb_scale by exact k_not. destruct (Reqb _ _); [exact Hd|]. rewrite Hd, Rabs_mult. ring.
Qed.
Lemma axes_rel : forall c c' h h' g2 g3 v v' a a', prel c c' -> hrel h h' -> vrel k v v' -> arel a a' -> rrel arel (drl_axes f n numfun tb c h g2 g3 v a) (drl_axes f' n numfun tb c' h' g2 g3 v' a').
Proof.
  intros c c' h h' g2 g3 v v' a a' Hc Hh Hv Ha. unfold drl_axes. cbv zeta. apply iter_rel; [|exact Ha]. clear a a' Ha. intros i a a' _ (A1 & A2 & A3 & A4).
  eapply bind_rel; [now apply prd|]. intros p p' Hp. eapply bind_rel; [now apply hrd|]. intros q q' Hq.
  eapply bind_rel; [apply (pwr c c' i); [exact Hc|rewrite Hp, Hq; ring]|]. intros x5 x5' H5. eapply bind_rel; [apply (pwr c c' i); [exact Hc|rewrite Hp, Hq; ring]|]. intros x6 x6' H6.
  eapply bind_rel; [apply (pwr c c' i); [exact Hc|rewrite Hp, Hq; ring]|]. intros x7 x7' H7. eapply bind_rel; [apply (pwr c c' i); [exact Hc|rewrite Hp, Hq; ring]|]. intros x8 x8' H8.
  cbn [rrel]. assert (S5 := same _ _ H5). assert (S6 := same _ _ H6). assert (S7 := same _ _ H7). assert (S8 := same _ _ H8).
  match goal with |- arel (if Rltb _ ?d then Axes ?b ?nu _ _ else _) (if Rltb _ ?d' then Axes ?b' ?nu' _ _ else _) =>
    assert (D : d' = Rabs k * d); [|assert (B : vrel k b b'); [|assert (N : forall i, vrel k (nu i) (nu' i)); [|rewrite D, A3, ltb_scale, A4 by apply ak_pos]]] end.
  - apply difsum_rel; [exact Hv| |ring]. intros j. rewrite Hv, S5, S6, S7, S8. ring.
  - intros j. rewrite A1, S5, S6, S7, S8. ring.
  - intros m j. rewrite A2, S5, S6, S7, S8. ring.
  - destruct (Rltb _ _); repeat split; try assumption; reflexivity.
Qed.
Definition srel (a a' : sums) : Prop := vrel k (s_bas a) (s_bas a') /\ (forall i, vrel k (s_null a i) (s_null a' i)) /\ forall i, s_g a' i = s_g a i.
Lemma sums_rel : forall c c' h h' a a', prel c c' -> hrel h h' -> srel a a' -> rrel srel (drl_sums f n tb c h a) (drl_sums f' n tb c' h' a').
Proof.
  intros c c' h h' a a' Hc Hh Ha. unfold drl_sums. apply iter_rel; [|exact Ha]. clear a a' Ha. intros i a a' _ (A1 & A2 & A3). rewrite A3.
  eapply bind_rel; [apply dfs_rel; eassumption|]. intros [v g] [v' g'] [Hv E]. cbn [fst snd] in *. subst g'. split; [|split]; cbn [s_bas s_null s_g].
  - intros j. rewrite A1, Hv. ring.
  - intros m j. rewrite A2, Hv. ring.
  - intros m. destruct (Nat.eqb m i); [reflexivity|apply A3].
Qed.
Lemma search_rel : forall nu nu' j i, (forall i, vrel k (nu i) (nu' i)) -> drl_search n tb nu' j i = Rabs k * drl_search n tb nu j i.
Proof.
  intros nu nu' j i H. unfold drl_search. assert (K : forall l d d', d' = Rabs k * d -> fold_left (fun s k0 => Rmax s (Rabs (nu' (i + 1)%nat j + scales tb i k0 * nu' i j) * norms n tb i k0)) l d' = Rabs k * fold_left (fun s k0 => Rmax s (Rabs (nu (i + 1)%nat j + scales tb i k0 * nu i j) * norms n tb i k0)) l d); [|apply K; ring].
  induction l as [|m l IH]; intros d d' Hd; cbn [fold_left]; [exact Hd|]. apply IH. rewrite Hd, !H. replace (k * nu (i + 1)%nat j + scales tb i m * (k * nu i j)) with (k * (nu (i + 1)%nat j + scales tb i m * nu i j)) by ring. rewrite Rabs_mult, Rmult_assoc. now rewrite RmaxRmult by (apply Rlt_le, ak_pos).
Qed.
Lemma error_rel : forall nu nu', (forall i, vrel k (nu i) (nu' i)) -> vrel (Rabs k) (drl_error n tb nu) (drl_error n tb nu').
Proof.
  intros nu nu' H j. unfold drl_error. rewrite !(search_rel nu nu') by exact H. cbv zeta. rewrite !(Rmult_comm (Rabs k)). set (n1 := drl_search n tb nu j 1). set (n2 := drl_search n tb nu j 2). set (n3 := drl_search n tb nu j 3).
  replace (t_ec tb 1 * (n1 * Rabs k)) with (Rabs k * (t_ec tb 1 * n1)) by ring. replace (t_ec tb 2 * (n2 * Rabs k)) with (Rabs k * (t_ec tb 2 * n2)) by ring. rewrite (Rmult_comm n2), (Rmult_comm n3), (Rmult_comm n1), !leb_scale by apply ak_pos.
  destruct (Rleb _ _ && Rleb _ _); [ring|]. rewrite !RmaxRmult by (apply Rlt_le, ak_pos). ring.
Qed.
Definition outrel (r r' : vec * vec * nat * (nat -> list R)) : Prop :=
  let '(v, e, d, g) := r in let '(v', e', d', g') := r' in vrel (s ^ n * k) v v' /\ vrel (s ^ n * Rabs k) e e' /\ d' = d /\ forall i, g' i = g i.
Lemma drl_rel : forall c c' h h' g g', prel c c' -> hrel h h' -> (forall i, g' i = g i) -> rrel outrel (drlhre f n numfun tb c h g) (drlhre f' n numfun tb c' h' g').
Proof.
  intros c c' h h' g g' Hc Hh Hg. unfold drlhre. eapply bind_rel; [now apply volume_rel|]. intros [vo d] [vo' d'] [Ev Ed]. cbn [fst snd] in *. subst d'. cbv zeta. rewrite !Hg.
  eapply bind_rel; [apply same_rd|]. intros g2 ? ->. eapply bind_rel; [apply same_rd|]. intros g3 ? ->. assert (S0 := same _ _ Hc).
  eapply bind_rel; [apply axes_rel; [exact Hc|exact Hh|exact S0|]|].
  { split; [|split; [|split]]; cbn [x_bas x_null x_difmax x_divaxn]; [intros j; rewrite S0; ring|intros m j; rewrite S0; ring|ring|reflexivity]. }
  intros a a' (A1 & A2 & A3 & A4). eapply bind_rel; [apply sums_rel; [exact Hc|exact Hh|]|].
  { split; [exact A1|]. split; [exact A2|exact Hg]. }
  intros u u' (U1 & U2 & U3). cbn [rrel outrel]. rewrite A4. split; [|split; [|split; [reflexivity|exact U3]]]; intros j.
  - rewrite Ev, U1. ring.
  - rewrite Ev, (error_rel _ _ U2). ring.
Qed.
End Units.
