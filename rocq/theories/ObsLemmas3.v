(** The information matrix of functions with an even part of the fourth
    degree. *)

From Coq Require Import List Bool Arith Reals Lra Lia.
From Verif Require Import Exn Instances CountSpec CountLemmas McModel McLemmas9 BaModel BaSpec BaLemmas ObsModel ObsSpec ObsLemmas ObsLemmas2.
Import ListNotations.
Open Scope R_scope.

(** A list that holds some elements of a square matrix *)
Definition holds (n : nat) (p : list (option R)) (F : nat -> nat -> R) (D : nat -> nat -> Prop) : Prop :=
  length p = (n * n)%nat /\ forall i j, (i < n)%nat -> (j < n)%nat -> D i j -> rds p (i * n + j) = Ok (F i j).
Lemma idx_lt : forall n i j, (i < n)%nat -> (j < n)%nat -> (i * n + j < n * n)%nat.
Proof. intros n i j H H'. nia. Qed.
Lemma idx_eq : forall n i j k l, (j < n)%nat -> (l < n)%nat -> (i * n + j = k * n + l)%nat -> i = k /\ j = l.
Proof. intros n i j k l H H' E. assert (i = k) by nia. subst. lia. Qed.
Lemma holds_wr : forall n p F D i j v, holds n p F D -> (i < n)%nat -> (j < n)%nat -> v = F i j ->
  exists p', wr p (i * n + j) (Some v) = Ok p' /\ holds n p' F (fun k l => D k l \/ (k = i /\ l = j)).
Proof.
  intros n p F D i j v [L H] Hi Hj ->. assert (X := idx_lt n i j Hi Hj). exists (upd (i * n + j) (Some (F i j)) p).
  rewrite wr_ok by lia. split; [reflexivity|]. split; [rewrite upd_len; lia|].
  intros k l Hk Hl C. rewrite rds_upd by lia. destruct (Nat.eqb_spec (k * n + l) (i * n + j)) as [E|E].
  - apply idx_eq in E; [|assumption|assumption]. destruct E as [-> ->]. reflexivity.
  - destruct C as [C|[-> ->]]; [now apply H|lia].
Qed.
Lemma holds_sub : forall n p F (D D' : nat -> nat -> Prop), (forall i j, (i < n)%nat -> (j < n)%nat -> D' i j -> D i j) -> holds n p F D -> holds n p F D'.
Proof. intros n p F D D' S [L H]. split; [exact L|]. intros i j Hi Hj C. apply H; auto. Qed.

Lemma all_set_ok : forall p (F : nat -> R), (forall i, (i < length p)%nat -> rds p i = Ok (F i)) -> exists l, all_set p = Ok l /\ length l = length p /\ forall i, (i < length p)%nat -> nth i l 0 = F i.
Proof.
  intros p. induction p as [|o p IH]; intros F H.
  - exists []. repeat split. intros i Hi. cbn in Hi. lia.
  - cbn [all_set]. assert (H0 := H 0%nat ltac:(cbn; lia)). unfold rds in H0. cbn in H0. destruct o as [v|]; [|discriminate]. injection H0 as H0.
    destruct (IH (fun i => F (S i))) as [l [E [L N]]].
    { intros i Hi. exact (H (S i) ltac:(cbn; lia)). }
    rewrite E. exists (v :: l). split; [reflexivity|]. split; [cbn; lia|]. intros [|i] Hi; [exact H0|]. cbn. apply N. cbn in Hi. lia.
Qed.
Lemma holds_all : forall n p F D, holds n p F D -> (forall i j, (i < n)%nat -> (j < n)%nat -> D i j) ->
  exists l, all_set p = Ok l /\ square (Mat n n l) n /\ forall i j, (i < n)%nat -> (j < n)%nat -> entry (Mat n n l) i j = F i j.
Proof.
  intros n p F D [L H] A. destruct (all_set_ok p (fun k => F (k / n)%nat (k mod n)%nat)) as [l [E [LL N]]].
  { intros k Hk. rewrite L in Hk. assert (n <> 0%nat) by (intros ->; lia).
    assert (B := Nat.mod_upper_bound k n ltac:(assumption)). assert (C : (k / n < n)%nat) by (apply Nat.div_lt_upper_bound; assumption).
    rewrite <- (H (k / n) (k mod n) C B (A _ _ C B))%nat. f_equal. rewrite Nat.mul_comm. now apply Nat.div_mod. }
  exists l. split; [exact E|]. split; [split; [reflexivity|split; [reflexivity|unfold shaped; cbn; lia]]|].
  intros i j Hi Hj. unfold entry. cbn [cells cols]. rewrite N by (rewrite L; now apply idx_lt).
  replace ((i * n + j) / n)%nat with i; [replace ((i * n + j) mod n)%nat with j; [reflexivity|]|].
  - rewrite Nat.add_comm, Nat.mod_add by lia. symmetry. now apply Nat.mod_small.
  - rewrite Nat.add_comm, Nat.div_add by lia. rewrite Nat.div_small by exact Hj. reflexivity.
Qed.

Section Exact.
Variable lf : list R -> res R.
Variables (mu dp : list R) (top : R) (Q : nat -> nat -> R) (K : (nat -> R) -> R) (iters : nat).
Let n := length mu.
Hypothesis HE : even_part lf mu top Q K.
Hypothesis HK : fourth_degree K.
Hypothesis HS : forall i j, (i < length mu)%nat -> (j < length mu)%nat -> Q i j = Q j i.
Hypothesis HP : forall i, (i < length mu)%nat -> 0 < Q i i.
Hypothesis HL : length dp = length mu.
Hypothesis HD : forall i, (i < length mu)%nat -> nth i dp 0 <> 0.
Hypothesis HI : (1 <= iters)%nat.
Hypothesis H1 : iters = 1%nat -> forall v, K v = 0.
Hypothesis BD : forall i, (i < length mu)%nat -> Rabs (K (axis i (nth i dp 0))) <= big * (nth i dp 0) ^ 2.
Let sig (i : nat) := 1 / sqrt (Q i i).
Hypothesis BO : forall i j, (i < j < length mu)%nat -> Rabs (K (two_axes i (1 / sqrt (Q i i)) j (1 / sqrt (Q j j)))) <= big.

Let ratio_pow : forall m, 0 < ratio ^ m.
Proof. intros m. apply pow_lt, ratio_pos. Qed.

(** The estimated errors *)
Definition fourth_err (i j : nat) : R :=
  if Nat.eqb i j then err_of iters (K (axis i (nth i dp 0)) / (nth i dp 0) ^ 2)
  else 1 / 2 * err_of iters (K (two_axes (min i j) (sig (min i j)) (max i j) (sig (max i j)))) / (sig (min i j) * sig (max i j)).

Lemma sqrt_pos_Q : forall i, (i < n)%nat -> 0 < sqrt (Q i i).
Proof. intros i Hi. apply sqrt_lt_R0. now apply HP. Qed.
Lemma sig_pos : forall i, (i < n)%nat -> 0 < sig i.
Proof. intros i Hi. unfold sig. apply Rdiv_lt_0_compat; [lra|now apply sqrt_pos_Q]. Qed.
Lemma sig_sq : forall i, (i < n)%nat -> Q i i * sig i ^ 2 = 1.
Proof.
  intros i Hi. assert (S := sqrt_pos_Q i Hi). unfold sig. rewrite <- (sqrt_sqrt (Q i i)) at 1 by (apply Rlt_le; now apply HP). field. lra.
Qed.


Lemma diag_diff_at : forall i j, (i < n)%nat -> (1 <= j <= iters)%nat -> exists a b,
  lf (upd i (nth i mu 0 + nth i dp 0 * ratio ^ (iters - j)) mu) = Ok a /\ lf (upd i (nth i mu 0 - nth i dp 0 * ratio ^ (iters - j)) mu) = Ok b /\
  quot a b top (nth i dp 0 * ratio ^ (iters - j)) = Ok (- Q i i + K (axis i (nth i dp 0)) / (nth i dp 0) ^ 2 * (ratio ^ (iters - j)) ^ 2).
Proof.
  intros i j Hi Hj. set (t := ratio ^ (iters - j)). set (d := nth i dp 0). assert (D := HD i Hi). fold d in D. assert (T : 0 < t) by apply ratio_pow.
  destruct (HE (scaled t (axis i d))) as [a [b [Ha [Hb Hab]]]]. exists a, b.
  rewrite (moved_axis mu i (d * t) (scaled t (axis i d)) Hi) by (intros k _; unfold scaled, axis; destruct (Nat.eqb k i); ring).
  unfold Rminus at 1. rewrite (moved_axis mu i (- (d * t)) (opposite (scaled t (axis i d))) Hi) by (intros k _; unfold opposite, scaled, axis; destruct (Nat.eqb k i); ring).
  split; [exact Ha|]. split; [exact Hb|]. unfold quot. assert (NZ : d * t <> 0) by (apply Rmult_integral_contrapositive_currified; lra).
  rewrite reqb_ne by (apply Rmult_integral_contrapositive_currified; assumption). f_equal.
  rewrite Hab, HK, quad_scaled, quad_axis by exact Hi. field. split; lra.
Qed.
Lemma diag_one_ok : forall i info ierr D, (i < n)%nat -> holds n info Q D -> holds n ierr fourth_err D ->
  exists info' ierr', diag_one lf top dp iters n i (info, ierr) mu = (mu, Ok (info', ierr')) /\
    holds n info' Q (fun k l => D k l \/ (k = i /\ l = i)) /\ holds n ierr' fourth_err (fun k l => D k l \/ (k = i /\ l = i)).
Proof.
  intros i info ierr D Hi H H'. unfold diag_one, bind at 1, get_mu. rewrite rd_nth by exact Hi.
  unfold bind at 1, lift at 1. rewrite rd_nth by (rewrite HL; exact Hi). unfold bind at 1.
  destruct (diag_diffs_ok lf top (nth i mu 0) (nth i dp 0) i iters (fun j => - Q i i + K (axis i (nth i dp 0)) / (nth i dp 0) ^ 2 * (ratio ^ (iters - j)) ^ 2) mu Hi
     (fun j Hj => diag_diff_at i j Hi Hj) iters 1 (repeat None iters) (nth i mu 0)) as [d2f [t [E Y]]]; [lia|lia|apply repeat_length|intros; lia|].
  assert (B : upd i (nth i mu 0) mu = mu).
  { rewrite <- (upd_upd _ i (nth i mu 0) 0 mu Hi). apply upd_back; [now apply rd_nth|exact Hi]. }
  rewrite B in E. rewrite E. clear E.
  set (dd := K (axis i (nth i dp 0)) / (nth i dp 0) ^ 2) in *.
  assert (SQ : 0 < nth i dp 0 ^ 2) by (assert (D0 := HD i Hi); nra).
  assert (BDD : Rabs dd <= big).
  { unfold dd. unfold Rdiv. rewrite Rabs_mult, (Rabs_pos_eq (/ _)) by (apply Rlt_le, Rinv_0_lt_compat; exact SQ).
    apply Rmult_le_reg_r with (nth i dp 0 ^ 2); [exact SQ|]. rewrite Rmult_assoc, Rinv_l, Rmult_1_r by lra. now apply BD. }
  assert (G : (if Nat.ltb 1 iters then bind (lift (extrapolated d2f iters)) (fun re => ret (- fst re, Rabs (snd re))) else bind (lift (rds d2f 0)) (fun v => ret (- v, 0))) (upd i t mu)
              = (upd i t mu, Ok (Q i i, fourth_err i i))).
  { unfold fourth_err. rewrite Nat.eqb_refl. fold dd. destruct (Nat.ltb_spec 1 iters) as [I|I].
    - unfold bind, lift. rewrite (extrapolated_even d2f iters (- Q i i) dd I Y BDD). unfold ret. cbn [fst snd]. rewrite Ropp_involutive.
      unfold err_of. destruct (Nat.eqb iters 2); [now rewrite Rabs_Rabsolu|now rewrite Rabs_R0].
    - assert (I1 : iters = 1%nat) by lia. specialize (Y 1%nat ltac:(lia)). change (1 - 1)%nat with 0%nat in Y. unfold bind, lift. rewrite Y. unfold ret, dd, err_of. rewrite (H1 I1), I1. cbn [Nat.eqb]. repeat f_equal. unfold Rdiv. ring. }
  unfold bind at 1. rewrite G. clear G. cbn [fst snd].
  destruct (holds_wr n info Q D i i (Q i i) H Hi Hi eq_refl) as [info' [E1 K1]]. destruct (holds_wr n ierr fourth_err D i i (fourth_err i i) H' Hi Hi eq_refl) as [ierr' [E2 K2]].
  unfold bind at 1, lift at 1. rewrite E1. unfold bind at 1, lift at 1. rewrite E2. unfold bind. rewrite set_mu_ok by (rewrite upd_len; exact Hi).
  rewrite upd_upd, B by exact Hi. exists info', ierr'. split; [reflexivity|split; assumption].
Qed.

Lemma mixed_diff_at : forall i j k, (i < j < n)%nat -> (1 <= k <= iters)%nat -> exists a b,
  lf (upd j (nth j mu 0 + ratio ^ (iters - k) * sig j) (upd i (nth i mu 0 + ratio ^ (iters - k) * sig i) mu)) = Ok a /\
  lf (upd j (nth j mu 0 - ratio ^ (iters - k) * sig j) (upd i (nth i mu 0 - ratio ^ (iters - k) * sig i) mu)) = Ok b /\
  quot a b top (ratio ^ (iters - k)) = Ok (- (2 + 2 * Q i j * (sig i * sig j)) + K (two_axes i (sig i) j (sig j)) * (ratio ^ (iters - k)) ^ 2).
Proof.
  intros i j k Hij Hk. set (t := ratio ^ (iters - k)). assert (T : 0 < t) by apply ratio_pow.
  destruct (HE (scaled t (two_axes i (sig i) j (sig j)))) as [a [b [Ha [Hb Hab]]]]. exists a, b.
  assert (Li : (i < length mu)%nat) by (fold n; lia). assert (Lj : (j < length mu)%nat) by (fold n; lia).
  rewrite (moved_two mu i j (t * sig i) (t * sig j) (scaled t (two_axes i (sig i) j (sig j))) Li Lj) by (lia || (intros l _; unfold scaled, two_axes, axis; destruct (Nat.eqb l i), (Nat.eqb l j); ring)).
  unfold Rminus. rewrite (moved_two mu i j (- (t * sig i)) (- (t * sig j)) (opposite (scaled t (two_axes i (sig i) j (sig j)))) Li Lj) by (lia || (intros l _; unfold opposite, scaled, two_axes, axis; destruct (Nat.eqb l i), (Nat.eqb l j); ring)).
  split; [exact Ha|]. split; [exact Hb|]. unfold quot. rewrite reqb_ne by (apply Rmult_integral_contrapositive_currified; lra). f_equal.
  rewrite Hab, HK, quad_scaled, quad_two by assumption. rewrite <- (HS i j Li Lj), (sig_sq i), (sig_sq j) by assumption. field. lra.
Qed.
Lemma mixed_one_ok : forall i j info ierr D t, (i < j < n)%nat -> holds n info Q D -> holds n ierr fourth_err D -> D j j ->
  exists info' ierr' t', mixed_one lf top iters n i (nth i mu 0) (sig i) j (info, ierr) (upd i t mu) = (upd i t' mu, Ok (info', ierr')) /\
    holds n info' Q (fun k l => D k l \/ (k = i /\ l = j) \/ (k = j /\ l = i)) /\ holds n ierr' fourth_err (fun k l => D k l \/ (k = i /\ l = j) \/ (k = j /\ l = i)).
Proof.
  intros i j info ierr D t Hij H H' HDj. assert (Hi : (i < n)%nat) by lia. assert (Hj : (j < n)%nat) by lia.
  assert (L : forall x, length (upd i x mu) = length mu) by (intros x; apply upd_len; exact Hi).
  assert (R2 : forall x, rd (upd i x mu) j = Ok (nth j mu 0)) by (intros x; rewrite rd_upd, eqb_no by (exact Hi || lia); apply rd_nth; exact Hj).
  unfold mixed_one, bind at 1, get_mu. rewrite R2. unfold bind at 1, lift at 1. cbn [fst snd]. rewrite (proj2 H j j Hj Hj HDj).
  unfold bind at 1, lift at 1, sigma_of. rewrite rleb_no by now apply HP. fold (sig j). unfold bind at 1.
  destruct (mixed_diffs_ok lf top (nth i mu 0) (nth j mu 0) (sig i) (sig j) i j iters
     (fun k => - (2 + 2 * Q i j * (sig i * sig j)) + K (two_axes i (sig i) j (sig j)) * (ratio ^ (iters - k)) ^ 2) mu Hi Hj ltac:(lia)
     (fun k Hk => mixed_diff_at i j k Hij Hk) iters 1 (repeat None iters) t (nth j mu 0)) as [d2f [t1 [u1 [E Y]]]]; [lia|lia|apply repeat_length|intros; lia|].
  assert (B : forall x y, upd j (nth j mu 0) (upd j y (upd i x mu)) = upd i x mu).
  { intros x y. apply upd_back; [apply R2|rewrite L; exact Hj]. }
  rewrite <- (upd_upd _ j (nth j mu 0) 0) in E by (rewrite L; exact Hj). rewrite B in E. rewrite E. clear E.
  set (dd := K (two_axes i (sig i) j (sig j))) in *.
  assert (BDD : Rabs dd <= big) by (apply BO; exact Hij).
  assert (S1 := sig_pos i Hi). assert (S2 := sig_pos j Hj).
  assert (G : (if Nat.ltb 1 iters then bind (lift (extrapolated d2f iters)) (fun re => ret (- (1 / 2) * (fst re + 2) / (sig i * sig j), 1 / 2 * Rabs (snd re) / (sig i * sig j)))
               else bind (lift (rds d2f 0)) (fun v => ret (- (1 / 2) * (v + 2) / (sig i * sig j), 0))) (upd j u1 (upd i t1 mu))
              = (upd j u1 (upd i t1 mu), Ok (Q i j, fourth_err i j))).
  { unfold fourth_err. rewrite eqb_no, Nat.min_l, Nat.max_r by lia. fold dd. destruct (Nat.ltb_spec 1 iters) as [I|I].
    - unfold bind, lift. rewrite (extrapolated_even d2f iters _ dd I Y BDD). unfold ret. cbn [fst snd].
      replace (Rabs (err_of iters dd)) with (err_of iters dd) by (unfold err_of; destruct (Nat.eqb iters 2); [now rewrite Rabs_Rabsolu|now rewrite Rabs_R0]).
      repeat f_equal. field. split; lra.
    - assert (I1 : iters = 1%nat) by lia. specialize (Y 1%nat ltac:(lia)). change (1 - 1)%nat with 0%nat in Y. unfold bind, lift. rewrite Y. unfold ret, dd, err_of. rewrite (H1 I1), I1. cbn [Nat.eqb]. repeat f_equal; field; split; lra. }
  unfold bind at 1. rewrite G. clear G. cbn [fst snd].
  destruct (holds_wr n info Q D i j (Q i j) H Hi Hj eq_refl) as [info1 [E1 K1]]. destruct (holds_wr n ierr fourth_err D i j (fourth_err i j) H' Hi Hj eq_refl) as [ierr1 [E2 K2]].
  destruct (holds_wr n info1 Q _ j i (Q i j) K1 Hj Hi (HS i j Hi Hj)) as [info2 [E3 K3]].
  assert (ES : fourth_err i j = fourth_err j i) by (unfold fourth_err; rewrite (eqb_no i j), (eqb_no j i), (Nat.min_comm j i), (Nat.max_comm j i) by lia; reflexivity).
  destruct (holds_wr n ierr1 fourth_err _ j i (fourth_err i j) K2 Hj Hi ES) as [ierr2 [E4 K4]].
  unfold bind at 1, lift at 1. rewrite E1. unfold bind at 1, lift at 1. rewrite E2. unfold bind at 1, lift at 1. rewrite E3. unfold bind at 1, lift at 1. rewrite E4.
  unfold bind. rewrite set_mu_ok by (rewrite upd_len; rewrite L; exact Hj). rewrite B.
  exists info2, ierr2, t1. split; [reflexivity|]. split; [eapply holds_sub; [|exact K3]|eapply holds_sub; [|exact K4]]; cbn; tauto.
Qed.
Lemma mixed_row_ok : forall i info ierr D, (i < n)%nat -> holds n info Q D -> holds n ierr fourth_err D -> (forall k, (k < n)%nat -> D k k) ->
  exists info' ierr', mixed_row lf top iters n i (info, ierr) mu = (mu, Ok (info', ierr')) /\
    holds n info' Q (fun k l => D k l \/ (k = i /\ (i < l)%nat) \/ (l = i /\ (i < k)%nat)) /\ holds n ierr' fourth_err (fun k l => D k l \/ (k = i /\ (i < l)%nat) \/ (l = i /\ (i < k)%nat)).
Proof.
  intros i info ierr D Hi H H' HDD. unfold mixed_row, bind at 1, get_mu. rewrite rd_nth by exact Hi.
  unfold bind at 1, lift at 1. cbn [fst]. rewrite (proj2 H i i Hi Hi (HDD i Hi)). unfold bind at 1, lift at 1, sigma_of. rewrite rleb_no by now apply HP. fold (sig i).
  assert (B : upd i (nth i mu 0) mu = mu).
  { rewrite <- (upd_upd _ i (nth i mu 0) 0 mu Hi). apply upd_back; [now apply rd_nth|exact Hi]. }
  unfold bind at 1.
  destruct (over_up (list R) (list (option R) * list (option R)) (fun m arr s => (exists t, s = upd i t mu) /\
      holds n (fst arr) Q (fun k l => D k l \/ (k = i /\ (i < l < m)%nat) \/ (l = i /\ (i < k < m)%nat)) /\
      holds n (snd arr) fourth_err (fun k l => D k l \/ (k = i /\ (i < l < m)%nat) \/ (l = i /\ (i < k < m)%nat)))
      (n - (i + 1)) (i + 1) (mixed_one lf top iters n i (nth i mu 0) (sig i)) (info, ierr) mu) as [arr [s [E [[t Es] [I1 I2]]]]].
  - split; [exists (nth i mu 0); now symmetry|]. cbn [fst snd].
    split; [eapply holds_sub; [|exact H]|eapply holds_sub; [|exact H']]; cbn; intros a b Ha Hb [C|[C|C]]; try exact C; lia.
  - intros j [info1 ierr1] s1 Hj [[t1 ->] [J1 J2]]. cbn [fst snd] in J1, J2.
    destruct (mixed_one_ok i j info1 ierr1 _ t1 ltac:(lia) J1 J2) as [info2 [ierr2 [t2 [E2 [L1 L2]]]]]; [left; apply HDD; lia|].
    exists (info2, ierr2), (upd i t2 mu). split; [exact E2|]. split; [now exists t2|]. cbn [fst snd].
    split; [eapply holds_sub; [|exact L1]|eapply holds_sub; [|exact L2]]; cbn; (intros a b Ha Hb [C|[C|C]]; [tauto|destruct (Nat.eq_dec b j); [right; lia|left; right; lia]|destruct (Nat.eq_dec a j); [right; lia|left; right; lia]]).
  - rewrite E, Es. unfold bind. rewrite set_mu_ok by (rewrite upd_len; exact Hi). rewrite upd_upd, B by exact Hi.
    destruct arr as [info' ierr']. cbn [fst snd] in I1, I2. exists info', ierr'. split; [reflexivity|].
    split; [eapply holds_sub; [|exact I1]|eapply holds_sub; [|exact I2]]; cbn; (intros a b Ha Hb [C|C]; [tauto|right; lia]).
Qed.

Lemma ninfol_ok : exists info ierr, ninfol lf top dp iters mu = (mu, Ok (info, ierr)) /\ square info n /\ square ierr n /\
  forall i j, (i < n)%nat -> (j < n)%nat -> entry info i j = Q i j /\ entry ierr i j = fourth_err i j.
Proof.
  unfold ninfol, bind at 1, get. fold n. unfold bind at 1.
  destruct (over_up (list R) (list (option R) * list (option R)) (fun m arr s => s = mu /\ holds n (fst arr) Q (fun k l => k = l /\ (k < m)%nat) /\ holds n (snd arr) fourth_err (fun k l => k = l /\ (k < m)%nat))
      n 0 (diag_one lf top dp iters n) (repeat None (n * n), repeat None (n * n)) mu) as [[info1 ierr1] [s1 [E1 [-> [I1 I2]]]]].
  - split; [reflexivity|]. cbn [fst snd]. split; (split; [apply repeat_length|]); intros; lia.
  - intros i [info ierr] s Hi [-> [J1 J2]]. cbn [fst snd] in J1, J2. destruct (diag_one_ok i info ierr _ ltac:(lia) J1 J2) as [info' [ierr' [E [L1 L2]]]].
    exists (info', ierr'), mu. split; [exact E|]. split; [reflexivity|]. cbn [fst snd].
    split; [eapply holds_sub; [|exact L1]|eapply holds_sub; [|exact L2]]; cbn; intros a b Ha Hb C; lia.
  - rewrite E1. unfold bind at 1. cbn [fst snd] in I1, I2.
    destruct (over_up (list R) (list (option R) * list (option R)) (fun m arr s => s = mu /\ holds n (fst arr) Q (fun k l => k = l \/ ((k < l)%nat /\ (k < m)%nat) \/ ((l < k)%nat /\ (l < m)%nat)) /\
        holds n (snd arr) fourth_err (fun k l => k = l \/ ((k < l)%nat /\ (k < m)%nat) \/ ((l < k)%nat /\ (l < m)%nat)))
        (n - 1) 0 (mixed_row lf top iters n) (info1, ierr1) mu) as [[info2 ierr2] [s2 [E2 [-> [J1 J2]]]]].
    + split; [reflexivity|]. cbn [fst snd].
      split; [eapply holds_sub; [|exact I1]|eapply holds_sub; [|exact I2]]; cbn; intros a b Ha Hb [C|[C|C]]; lia.
    + intros i [info ierr] s Hi [-> [J1 J2]]. cbn [fst snd] in J1, J2.
      destruct (mixed_row_ok i info ierr _ ltac:(lia) J1 J2) as [info' [ierr' [E [L1 L2]]]]; [intros; now left|].
      exists (info', ierr'), mu. split; [exact E|]. split; [reflexivity|]. cbn [fst snd].
      split; [eapply holds_sub; [|exact L1]|eapply holds_sub; [|exact L2]]; cbn; intros a b Ha Hb [C|[C|C]]; lia.
    + rewrite E2. cbn [fst snd] in *.
      destruct (holds_all n info2 Q _ J1) as [l1 [A1 [S1 N1]]]; [cbn; intros; lia|].
      destruct (holds_all n ierr2 fourth_err _ J2) as [l2 [A2 [S2 N2]]]; [cbn; intros; lia|].
      unfold bind, lift. rewrite A1, A2. exists (Mat n n l1), (Mat n n l2). split; [reflexivity|]. split; [exact S1|]. split; [exact S2|]. intros i j Hi Hj. split; [now apply N1|now apply N2].
Qed.
End Exact.
