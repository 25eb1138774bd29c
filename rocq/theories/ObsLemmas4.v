(** obsinfo on quadratics, and what holds for every function. *)

From Coq Require Import List Bool Arith Reals Lra Lia.
From Verif Require Import Exn Instances CountSpec CountLemmas McModel McLemmas9 BaModel BaSpec BaLemmas ObsModel ObsSpec ObsLemmas ObsLemmas2 ObsLemmas3.
Import ListNotations.
Open Scope R_scope.

Lemma even_top : forall lf mu top Q K, even_part lf mu top Q K -> fourth_degree K -> lf mu = Ok top.
Proof.
  intros lf mu top Q K HE HK. set (v := scaled 0 (fun _ => 0)). destruct (HE v) as [a [b [Ha [Hb Hab]]]].
  assert (M : forall w, (forall k, w k = 0) -> moved mu w = mu).
  { intros w W. apply upd_ext; [apply moved_len|]. intros k Hk. rewrite moved_len in Hk. rewrite rd_moved, W, rd_nth by exact Hk. now rewrite Rplus_0_r. }
  rewrite M in Ha by (intros; unfold v, scaled; ring). rewrite M in Hb by (intros; unfold opposite, v, scaled; ring).
  rewrite Ha in Hb. injection Hb as <-. unfold v in Hab. rewrite HK, quad_scaled in Hab. rewrite Ha. f_equal. lra.
Qed.

Lemma obsinfo_fourth : forall lf mu deltas maxll niter top Q K,
  even_part lf mu top Q K -> fourth_degree K -> (forall i j, (i < length mu)%nat -> (j < length mu)%nat -> Q i j = Q j i) -> (forall i, (i < length mu)%nat -> 0 < Q i i) ->
  length deltas = length mu -> (forall i, (i < length mu)%nat -> nth i deltas 0 <> 0) -> (maxll = None \/ maxll = Some top) -> (niter = 0%nat -> forall v, K v = 0) ->
  (forall i, (i < length mu)%nat -> Rabs (K (axis i (nth i deltas 0))) <= big * nth i deltas 0 ^ 2) ->
  (forall i j, (i < j < length mu)%nat -> Rabs (K (two_axes i (1 / sqrt (Q i i)) j (1 / sqrt (Q j j)))) <= big) ->
  exists info err, obsinfo lf deltas maxll niter mu = (mu, Ok (info, err)) /\ square info (length mu) /\ square err (length mu) /\
    forall i j, (i < length mu)%nat -> (j < length mu)%nat -> entry info i j = Q i j /\ (entry err i j = fourth_err deltas Q K (niter + 1) i j).
Proof.
  intros lf mu deltas maxll niter top Q K HE HK HS HP HL HD HM H1 BD BO.
  assert (T := even_top lf mu top Q K HE HK).
  assert (E : obsinfo lf deltas maxll niter mu = ninfol lf top deltas (niter + 1) mu).
  { unfold obsinfo, bind at 1, get. unfold bind at 1. assert (X : match maxll with Some v => ret v | None => call_lf lf end mu = (mu, Ok top)) by (destruct HM as [->| ->]; [unfold call_lf; now rewrite T|reflexivity]).
    rewrite X, HL, Nat.eqb_refl. reflexivity. }
  rewrite E. apply ninfol_ok; auto; [lia|intros N; apply H1; lia].
Qed.

Lemma quad_opposite : forall n Q v, quad n Q (opposite v) = quad n Q v.
Proof. intros. unfold quad, opposite. apply so_ext. intros i _. apply so_ext. intros j _. ring. Qed.
Lemma quadratic_even : forall lf mu top grad Q, quadratic lf mu top grad Q -> even_part lf mu top Q (fun _ => 0).
Proof.
  intros lf mu top grad Q H v. do 2 eexists. split; [apply H|]. split; [apply H|]. rewrite quad_opposite.
  rewrite (so_ext (length mu) 0 (fun i => grad i * opposite v i) (fun i => (-1) * (grad i * v i))) by (intros; unfold opposite; ring). rewrite so_scal. field.
Qed.
Lemma obsinfo_quadratic : forall lf mu deltas maxll niter top grad Q,
  quadratic lf mu top grad Q -> (forall i j, (i < length mu)%nat -> (j < length mu)%nat -> Q i j = Q j i) -> (forall i, (i < length mu)%nat -> 0 < Q i i) ->
  length deltas = length mu -> (forall i, (i < length mu)%nat -> nth i deltas 0 <> 0) -> (maxll = None \/ maxll = Some top) ->
  exists info err, obsinfo lf deltas maxll niter mu = (mu, Ok (info, err)) /\ square info (length mu) /\ square err (length mu) /\
    forall i j, (i < length mu)%nat -> (j < length mu)%nat -> entry info i j = Q i j /\ entry err i j = 0.
Proof.
  intros lf mu deltas maxll niter top grad Q H HS HP HL HD HM. pose proof big_pos as BP.
  destruct (obsinfo_fourth lf mu deltas maxll niter top Q (fun _ => 0) (quadratic_even _ _ _ _ _ H)) as [info [err [E [S1 [S2 V]]]]]; auto.
  - intros t v. ring.
  - intros i _. rewrite Rabs_R0. nra.
  - intros. rewrite Rabs_R0. lra.
  - exists info, err. split; [exact E|]. split; [exact S1|]. split; [exact S2|]. intros i j Hi Hj. destruct (V i j Hi Hj) as [V1 V2]. split; [exact V1|]. rewrite V2.
    unfold fourth_err, err_of. destruct (Nat.eqb i j), (Nat.eqb (niter + 1) 2); unfold Rdiv; rewrite ?Rmult_0_l, ?Rabs_R0, ?Rmult_0_r, ?Rmult_0_l; reflexivity.
Qed.

Lemma fourth_err_two : forall dp Q K niter i j, (2 <= niter)%nat -> fourth_err dp Q K (niter + 1) i j = 0.
Proof. intros dp Q K niter i j H. unfold fourth_err, err_of. rewrite (eqb_no (niter + 1) 2) by lia. destruct (Nat.eqb i j); [reflexivity|]. unfold Rdiv. ring. Qed.

(** ** Every function *)
Lemma bind_inv : forall S A B (m : S -> S * res A) (k : A -> S -> S * res B) s s' b, bind m k s = (s', Ok b) -> exists a s1, m s = (s1, Ok a) /\ k a s1 = (s', Ok b).
Proof. intros S A B m k s s' b H. unfold bind in H. destruct (m s) as [s1 [a|e]]; [|discriminate]. exists a, s1. split; [reflexivity|exact H]. Qed.
Lemma over_inv : forall S T (P : nat -> T -> S -> Prop) n lo body (t : T) (s : S) t' s', P lo t s ->
  (forall i t s t' s', (lo <= i < lo + n)%nat -> P i t s -> body i t s = (s', Ok t') -> P (Datatypes.S i) t' s') ->
  over (seq lo n) body t s = (s', Ok t') -> P (lo + n)%nat t' s'.
Proof.
  intros S T P n. induction n as [|n IH]; intros lo body t s t' s' H0 H E; cbn [seq over] in E.
  - unfold ret in E. injection E as <- <-. now rewrite Nat.add_0_r.
  - apply bind_inv in E. destruct E as [t1 [s1 [E1 E2]]]. replace (lo + Datatypes.S n)%nat with (Datatypes.S lo + n)%nat by lia.
    apply (IH (Datatypes.S lo) body t1 s1 t' s'); [|intros i a b c d Hi; apply H; lia|exact E2]. apply (H lo t s t1 s1); [lia|exact H0|exact E1].
Qed.
Lemma lift_inv : forall S A (r : res A) (s s' : S) a, lift r s = (s', Ok a) -> s' = s /\ r = Ok a.
Proof. intros S A r s s' a H. unfold lift in H. injection H as <- ->. now split. Qed.
Lemma wr_inv : forall A p i (v : A) p', wr p i v = Ok p' -> (i < length p)%nat /\ p' = upd i v p.
Proof. intros A p i v p' H. unfold wr in H. destruct (Nat.ltb_spec i (length p)); [|discriminate]. injection H as <-. now split. Qed.
Lemma set_mu_inv : forall i v mu s', set_mu i v mu = (s', Ok tt) -> (i < length mu)%nat /\ s' = upd i v mu.
Proof. intros i v mu s' H. unfold set_mu in H. destruct (wr mu i v) as [p|e] eqn:E; [|discriminate]. injection H as <-. now apply wr_inv in E. Qed.

Section Any.
Variable lf : list R -> res R.
Lemma call_lf_inv : forall s s' v, call_lf lf s = (s', Ok v) -> s' = s.
Proof. intros s s' v H. unfold call_lf in H. now injection H as <- _. Qed.

Tactic Notation "nxt" ident(H) ident(a) ident(s) ident(E) := apply bind_inv in H; destruct H as [a [s [E H]]].

Lemma diag_diffs_any : forall lfmax mu1 dpi i iters mu, (i < length mu)%nat -> forall js d2f t s' d,
  diag_diffs lf lfmax mu1 dpi i iters js d2f (upd i t mu) = (s', Ok d) -> exists t', s' = upd i t' mu.
Proof.
  intros lfmax mu1 dpi i iters mu Hi js. induction js as [|j js IH]; intros d2f t s' d H; cbn [diag_diffs] in H.
  - unfold ret in H. injection H as <- _. now exists t.
  - assert (L : forall x, length (upd i x mu) = length mu) by (intros; now apply upd_len).
    unfold bind in H. rewrite set_mu_ok in H by (rewrite L; exact Hi). rewrite upd_upd in H by exact Hi. unfold call_lf at 1 in H.
    destruct (lf _) as [a|e] in H; [|discriminate]. rewrite set_mu_ok in H by (rewrite L; exact Hi). rewrite upd_upd in H by exact Hi. unfold call_lf in H.
    destruct (lf _) as [b|e] in H; [|discriminate]. unfold lift in H. destruct (quot _ _ _ _) as [q|e] in H; [|discriminate].
    destruct (wr _ _ _) as [d2|e] in H; [|discriminate]. now apply IH in H.
Qed.
Lemma mixed_diffs_any : forall lfmax mu1 mu2 sig1 sig2 i j iters mu, (i < length mu)%nat -> (j < length mu)%nat -> i <> j -> forall ks d2f t u s' d,
  mixed_diffs lf lfmax mu1 mu2 sig1 sig2 i j iters ks d2f (upd j u (upd i t mu)) = (s', Ok d) -> exists t' u', s' = upd j u' (upd i t' mu).
Proof.
  intros lfmax mu1 mu2 sig1 sig2 i j iters mu Hi Hj N ks. induction ks as [|k ks IH]; intros d2f t u s' d H; cbn [mixed_diffs] in H.
  - unfold ret in H. injection H as <- _. now exists t, u.
  - assert (SI : forall v w x, set_mu i v (upd j w (upd i x mu)) = (upd j w (upd i v mu), Ok tt)).
    { intros v w x. rewrite set_mu_ok by (rewrite !upd_len; rewrite ?upd_len; exact Hi || exact Hj). f_equal.
      rewrite upd_comm by (rewrite ?upd_len; assumption || lia). now rewrite upd_upd by exact Hi. }
    assert (SJ : forall v w x, set_mu j v (upd j w (upd i x mu)) = (upd j v (upd i x mu), Ok tt)).
    { intros v w x. assert (L := upd_len R i x mu Hi). rewrite set_mu_ok by (rewrite !upd_len; lia). f_equal. apply upd_upd. lia. }
    unfold bind in H. rewrite SI, SJ in H. unfold call_lf at 1 in H.
    destruct (lf _) as [a|e] in H; [|discriminate]. rewrite SI, SJ in H. unfold call_lf in H.
    destruct (lf _) as [b|e] in H; [|discriminate]. unfold lift in H. destruct (quot _ _ _ _) as [q|e] in H; [|discriminate].
    destruct (wr _ _ _) as [d2|e] in H; [|discriminate]. now apply IH in H.
Qed.

(** Symmetric arrays without negative elements *)
Definition symm (n : nat) (p : list (option R)) : Prop := length p = (n * n)%nat /\ forall i j, (i < n)%nat -> (j < n)%nat -> rd p (i * n + j) = rd p (j * n + i).
Definition nonneg (p : list (option R)) : Prop := forall k v, rd p k = Ok (Some v) -> 0 <= v.
Lemma nonneg_upd : forall p k v, (k < length p)%nat -> nonneg p -> 0 <= v -> nonneg (upd k (Some v) p).
Proof. intros p k v L H Hv l w. rewrite rd_upd by exact L. destruct (Nat.eqb l k); [intros E; now injection E as <-|apply H]. Qed.
Lemma symm_diag : forall n p i v, (i < n)%nat -> symm n p -> symm n (upd (i * n + i) v p).
Proof.
  intros n p i v Hi [L H]. assert (X := idx_lt n i i Hi Hi). split; [rewrite upd_len; lia|]. intros k l Hk Hl. rewrite !rd_upd by lia.
  destruct (Nat.eqb_spec (k * n + l) (i * n + i)) as [E|E].
  - apply idx_eq in E; [|assumption|assumption]. destruct E as [-> ->]. now rewrite Nat.eqb_refl.
  - rewrite eqb_no; [now apply H|]. intros E'. apply idx_eq in E'; [|assumption|assumption]. destruct E' as [-> ->]. lia.
Qed.
Lemma symm_pair : forall n p i j v, (i < n)%nat -> (j < n)%nat -> symm n p -> symm n (upd (j * n + i) v (upd (i * n + j) v p)).
Proof.
  intros n p i j v Hi Hj [L H]. assert (X := idx_lt n i j Hi Hj). assert (X' := idx_lt n j i Hj Hi). assert (L1 := upd_len _ (i * n + j) v p ltac:(lia)).
  split; [rewrite upd_len; lia|]. intros k l Hk Hl. rewrite !rd_upd by lia.
  assert (P : forall a b c d, (a < n)%nat -> (b < n)%nat -> (c < n)%nat -> (d < n)%nat -> Nat.eqb (a * n + b) (c * n + d) = (Nat.eqb a c && Nat.eqb b d)%bool).
  { intros a b c d Ha Hb Hc Hd. destruct (Nat.eqb_spec (a * n + b) (c * n + d)) as [E|E].
    - apply idx_eq in E; [|assumption|assumption]. destruct E as [-> ->]. now rewrite !Nat.eqb_refl.
    - destruct (Nat.eqb_spec a c) as [->|]; [|reflexivity]. destruct (Nat.eqb_spec b d) as [->|]; [lia|reflexivity]. }
  rewrite !P by assumption. rewrite (H k l Hk Hl). destruct (Nat.eqb k j), (Nat.eqb l i), (Nat.eqb k i), (Nat.eqb l j); reflexivity.
Qed.

Definition good (n : nat) (arr : list (option R) * list (option R)) : Prop := symm n (fst arr) /\ symm n (snd arr) /\ nonneg (snd arr).

Lemma rd_len : forall A (p : list A) i v, rd p i = Ok v -> (i < length p)%nat.
Proof. intros A p i v H. unfold rd in H. apply nth_error_Some. destruct (nth_error p i); congruence. Qed.

Lemma upd_same : forall A i (v : A) p, rd p i = Ok v -> (i < length p)%nat -> upd i v p = p.
Proof. intros A i v p H L. rewrite <- (upd_upd _ i v v p L). now apply upd_back. Qed.

Lemma diag_one_any : forall lfmax dp iters n i arr mu s' arr', n = length mu -> good n arr -> diag_one lf lfmax dp iters n i arr mu = (s', Ok arr') -> s' = mu /\ good n arr'.
Proof.
  intros lfmax dp iters n i [info ierr] mu s' arr' Hn [G1 [G2 G3]] H. cbn [fst snd] in *. unfold diag_one in H.
  nxt H mu1 s1 E1. unfold get_mu in E1. injection E1 as <- E1. assert (Hi := rd_len _ _ _ _ E1).
  nxt H dpi s2 E2. apply lift_inv in E2. destruct E2 as [-> _].
  nxt H d2f s3 E3. rewrite <- (upd_same _ i mu1 mu E1 Hi) in E3. apply diag_diffs_any in E3; [|exact Hi]. destruct E3 as [t ->].
  nxt H r s4 E4. assert (F : s4 = upd i t mu /\ 0 <= snd r).
  { destruct (Nat.ltb 1 iters).
    - nxt E4 re s5 E5. apply lift_inv in E5. destruct E5 as [-> _]. unfold ret in E4. injection E4 as <- <-. split; [reflexivity|]. apply Rabs_pos.
    - nxt E4 re s5 E5. apply lift_inv in E5. destruct E5 as [-> _]. unfold ret in E4. injection E4 as <- <-. split; [reflexivity|]. cbn. lra. }
  destruct F as [-> F].
  nxt H info' s5 E5. apply lift_inv in E5. destruct E5 as [-> E5]. apply wr_inv in E5. destruct E5 as [L1 ->].
  nxt H ierr' s6 E6. apply lift_inv in E6. destruct E6 as [-> E6]. apply wr_inv in E6. destruct E6 as [L2 ->].
  nxt H u s7 E7. destruct u. apply set_mu_inv in E7. destruct E7 as [_ ->]. rewrite upd_upd, (upd_same _ i mu1 mu) in H by assumption.
  unfold ret in H. injection H as <- <-. split; [reflexivity|]. cbn [fst snd] in *. split; [apply symm_diag; [lia|exact G1]|]. cbn [snd]. split; [apply symm_diag; [lia|exact G2]|apply nonneg_upd; assumption].
Qed.
Lemma sigma_inv : forall v s, sigma_of v = Ok s -> 0 < s.
Proof. intros v s H. unfold sigma_of in H. destruct (Rleb v 0) eqn:E; [discriminate|]. apply Rleb_false in E. injection H as <-. apply Rdiv_lt_0_compat; [lra|]. apply sqrt_lt_R0. lra. Qed.
Lemma mixed_one_any : forall lfmax iters n i mu1 sig1 j arr mu t s' arr', n = length mu -> (i < j)%nat -> (j < n)%nat -> 0 < sig1 -> good n arr ->
  mixed_one lf lfmax iters n i mu1 sig1 j arr (upd i t mu) = (s', Ok arr') -> (exists t', s' = upd i t' mu) /\ good n arr'.
Proof.
  intros lfmax iters n i mu1 sig1 j [info ierr] mu t s' arr' Hn Hij Hj Hs [G1 [G2 G3]] H. cbn [fst snd] in *. unfold mixed_one in H.
  assert (Hi : (i < length mu)%nat) by lia. assert (L : forall x, length (upd i x mu) = length mu) by (intros; now apply upd_len).
  nxt H mu2 s1 E1. unfold get_mu in E1. injection E1 as <- E1. assert (Hj' : (j < length (upd i t mu))%nat) by (rewrite L; lia).
  assert (R2 : rd mu j = Ok mu2) by (rewrite rd_upd, eqb_no in E1 by lia; exact E1).
  nxt H v s2 E2. apply lift_inv in E2. destruct E2 as [-> _].
  nxt H sig2 s3 E3. apply lift_inv in E3. destruct E3 as [-> E3]. apply sigma_inv in E3.
  nxt H d2f s4 E4. rewrite <- (upd_same _ j mu2 (upd i t mu) E1 Hj') in E4. apply mixed_diffs_any in E4; [|lia|lia|lia]. destruct E4 as [t' [u' ->]].
  assert (SS : 0 < sig1 * sig2) by (apply Rmult_lt_0_compat; assumption).
  nxt H r s5 E5. assert (F : s5 = upd j u' (upd i t' mu) /\ 0 <= snd r).
  { destruct (Nat.ltb 1 iters).
    - nxt E5 re s6 E6. apply lift_inv in E6. destruct E6 as [-> _]. unfold ret in E5. injection E5 as <- <-. split; [reflexivity|]. cbn [snd].
      apply Rmult_le_pos; [|apply Rlt_le, Rinv_0_lt_compat; exact SS]. assert (A := Rabs_pos (snd re)). lra.
    - nxt E5 re s6 E6. apply lift_inv in E6. destruct E6 as [-> _]. unfold ret in E5. injection E5 as <- <-. split; [reflexivity|]. cbn. lra. }
  destruct F as [-> F].
  nxt H p1 s6 E6. apply lift_inv in E6. destruct E6 as [-> E6]. apply wr_inv in E6. destruct E6 as [L1 ->].
  nxt H p2 s7 E7. apply lift_inv in E7. destruct E7 as [-> E7]. apply wr_inv in E7. destruct E7 as [L2 ->].
  nxt H p3 s8 E8. apply lift_inv in E8. destruct E8 as [-> E8]. apply wr_inv in E8. destruct E8 as [L3 ->].
  nxt H p4 s9 E9. apply lift_inv in E9. destruct E9 as [-> E9]. apply wr_inv in E9. destruct E9 as [L4 ->].
  nxt H u s10 E10. destruct u. apply set_mu_inv in E10. destruct E10 as [_ ->].
  rewrite upd_back in H; [|rewrite rd_upd, eqb_no by lia; exact R2|rewrite L; lia].
  unfold ret in H. injection H as <- <-. split; [now exists t'|].
  split; [apply symm_pair; [lia|exact Hj|exact G1]|]. split; [apply symm_pair; [lia|exact Hj|exact G2]|]. cbn [snd]. apply nonneg_upd; [exact L4|apply nonneg_upd; assumption|exact F].
Qed.
Lemma mixed_row_any : forall lfmax iters n i arr mu s' arr', n = length mu -> good n arr -> mixed_row lf lfmax iters n i arr mu = (s', Ok arr') -> s' = mu /\ good n arr'.
Proof.
  intros lfmax iters n i arr mu s' arr' Hn G H. unfold mixed_row in H.
  nxt H mu1 s1 E1. unfold get_mu in E1. injection E1 as <- E1. assert (Hi := rd_len _ _ _ _ E1).
  nxt H v s2 E2. apply lift_inv in E2. destruct E2 as [-> _].
  nxt H sig1 s3 E3. apply lift_inv in E3. destruct E3 as [-> E3]. apply sigma_inv in E3.
  nxt H arr1 s4 E4.
  apply (over_inv _ _ (fun _ a s => (exists t, s = upd i t mu) /\ good n a)) in E4.
  - destruct E4 as [[t ->] G']. nxt H u s5 E5. destruct u. apply set_mu_inv in E5. destruct E5 as [_ ->]. rewrite upd_upd, (upd_same _ i mu1 mu) in H by assumption.
    unfold ret in H. injection H as <- <-. now split.
  - split; [exists mu1; symmetry; now apply upd_same|exact G].
  - intros j a s a' s'' Hj [[t ->] Ga] E. apply (mixed_one_any lfmax iters n i mu1 sig1 j a mu t s'' a' Hn); [lia|lia|exact E3|exact Ga|exact E].
Qed.

Lemma all_set_inv : forall p l, all_set p = Ok l -> length l = length p /\ forall k, (k < length p)%nat -> rd p k = Ok (Some (nth k l 0)).
Proof.
  intros p. induction p as [|o p IH]; intros l H; cbn [all_set] in H.
  - injection H as <-. split; [reflexivity|]. intros k Hk. cbn in Hk. lia.
  - destruct o as [v|]; [|discriminate]. destruct (all_set p) as [l'|e] eqn:E; [|discriminate]. injection H as <-. destruct (IH l' eq_refl) as [L N].
    split; [cbn; lia|]. intros [|k] Hk; [reflexivity|]. cbn. apply N. cbn in Hk. lia.
Qed.
Lemma ninfol_any : forall lfmax dp iters mu s' info err, ninfol lf lfmax dp iters mu = (s', Ok (info, err)) ->
  s' = mu /\ square info (length mu) /\ square err (length mu) /\
  forall i j, (i < length mu)%nat -> (j < length mu)%nat -> entry info i j = entry info j i /\ entry err i j = entry err j i /\ 0 <= entry err i j.
Proof.
  intros lfmax dp iters mu s' info err H. unfold ninfol in H. nxt H m s0 E0. unfold get in E0. injection E0 as <- <-. set (n := length mu) in *.
  nxt H arr s1 E1. apply (over_inv _ _ (fun _ a s => s = mu /\ good n a)) in E1.
  2:{ split; [reflexivity|]. assert (Z : symm n (repeat None (n * n))).
      { split; [apply repeat_length|]. intros i j Hi Hj. rewrite !rd_repeat by now apply idx_lt. reflexivity. }
      split; [exact Z|]. split; [exact Z|]. cbn [snd]. intros k v K. assert (B := rd_len _ _ _ _ K). rewrite repeat_length in B. rewrite rd_repeat in K by exact B. discriminate. }
  2:{ intros i a s a' s'' _ [-> Ga] E. now apply (diag_one_any lfmax dp iters n i a mu s'' a'). }
  destruct E1 as [-> G1]. nxt H arr2 s2 E2. apply (over_inv _ _ (fun _ a s => s = mu /\ good n a)) in E2.
  2:{ now split. }
  2:{ intros i a s a' s'' _ [-> Ga] E. now apply (mixed_row_any lfmax iters n i a mu s'' a'). }
  destruct E2 as [-> [[L1 S1] [[L2 S2] N]]].
  nxt H l1 s3 E3. apply lift_inv in E3. destruct E3 as [-> E3]. apply all_set_inv in E3. destruct E3 as [K1 V1].
  nxt H l2 s4 E4. apply lift_inv in E4. destruct E4 as [-> E4]. apply all_set_inv in E4. destruct E4 as [K2 V2].
  unfold ret in H. injection H as <- <- <-. split; [reflexivity|].
  split; [split; [reflexivity|split; [reflexivity|unfold shaped; cbn; lia]]|]. split; [split; [reflexivity|split; [reflexivity|unfold shaped; cbn; lia]]|].
  intros i j Hi Hj. assert (X := idx_lt n i j Hi Hj). assert (X' := idx_lt n j i Hj Hi). unfold entry. cbn [cells cols].
  assert (A := S1 i j Hi Hj). rewrite !V1 in A by lia. assert (B := S2 i j Hi Hj). rewrite !V2 in B by lia.
  split; [now injection A|]. split; [now injection B|]. apply (N (i * n + j)%nat). apply V2. lia.
Qed.
Lemma obsinfo_any : forall deltas maxll niter mu s' info err, obsinfo lf deltas maxll niter mu = (s', Ok (info, err)) ->
  s' = mu /\ square info (length mu) /\ square err (length mu) /\
  forall i j, (i < length mu)%nat -> (j < length mu)%nat -> entry info i j = entry info j i /\ entry err i j = entry err j i /\ 0 <= entry err i j.
Proof.
  intros deltas maxll niter mu s' info err H. unfold obsinfo in H. nxt H m s0 E0. unfold get in E0. injection E0 as <- <-.
  nxt H top s1 E1. assert (s1 = mu) as -> by (destruct maxll; [unfold ret in E1; now injection E1 as <- _|now apply call_lf_inv in E1]).
  destruct (negb _); [discriminate|]. now apply ninfol_any in H.
Qed.
End Any.
