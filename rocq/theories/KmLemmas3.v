(** Lemmas on PLEST1 *)

From Coq Require Import List Bool Arith ZArith Reals Lra Lia Permutation.
From Verif Require Import Exn Instances McModel BaModel KmModel KmSpec KmLemmas KmLemmas2.
Import ListNotations.
Open Scope R_scope.

Lemma change_ok ntot c : forall nc u nu ch, (1 <= nu)%nat -> (nu + nc <= ntot)%nat -> incr c nc ->
  exists u' t, pl_change ntot c nc u nu ch = Ok (u', (nu + t)%nat, (nc - t)%nat, (ch + t)%nat) /\ (t <= nc)%nat /\
    (forall k, (k <= nu)%nat -> u' k = u k) /\
    (forall s, (1 <= s <= t)%nat -> u' (nu + s)%nat = c nc /\ c (nc + 1 - s)%nat = c nc) /\
    ((1 <= t)%nat -> u nu <= c nc) /\
    (forall k, (1 <= k <= nc - t)%nat -> c k < u' (nu + t)%nat) /\
    (forall k, (nu + t < k)%nat -> u' k = u k).
Proof.
  induction nc as [|nc IH]; intros u nu ch Hnu Hn Hc.
  - exists u, 0%nat. cbn. rewrite !Nat.add_0_r. repeat split; intros; try easy; lia.
  - cbn [pl_change]. destruct (Rleb (u nu) (c (S nc))) eqn:E.
    + apply Rleb_true in E. unfold store. replace ((1 <=? nu + 1) && (nu + 1 <=? ntot))%nat with true
        by (symmetry; apply andb_true_iff; split; apply Nat.leb_le; lia).
      destruct (IH (put u (nu + 1) (c (S nc))) (nu + 1)%nat (ch + 1)%nat ltac:(lia) ltac:(lia)) as (u' & t & P & T & A & B & C & D & F).
      { intros i j Hi Hj. apply Hc; lia. }
      assert (EQ : (1 <= t)%nat -> c nc = c (S nc)).
      { intros Ht. specialize (C Ht). rewrite put_eq in C. assert (X := Hc nc (S nc) ltac:(lia) ltac:(lia)). lra. }
      exists u', (S t). rewrite P. split.
      { replace (nu + S t)%nat with (nu + 1 + t)%nat by lia. replace (ch + S t)%nat with (ch + 1 + t)%nat by lia. easy. }
      split; [lia|]. split.
      { intros k Hk. rewrite A by lia. apply put_ne. lia. }
      split.
      { intros s Hs. destruct (Nat.eq_dec s 1) as [->|N].
        - rewrite A by lia. rewrite put_eq. split; [easy | f_equal; lia].
        - destruct (B (s - 1)%nat ltac:(lia)) as [B1 B2]. rewrite <- EQ by lia. split; [rewrite <- B1; f_equal; lia | rewrite <- B2; f_equal; lia]. }
      split; [easy|]. split.
      { intros k Hk. replace (nu + S t)%nat with (nu + 1 + t)%nat by lia. apply D. lia. }
      intros k Hk. rewrite F by lia. apply put_ne. lia.
    + apply Rleb_false in E. exists u, 0%nat. rewrite !Nat.add_0_r, Nat.sub_0_r. repeat split; intros; try easy; try lia.
      assert (X := Hc k (S nc) ltac:(lia) ltac:(lia)). lra.
Qed.

Lemma scan_ok c x nc : forall n j kk k1, (j + n = nc + 1)%nat -> (kk + 1 = j)%nat -> (1 <= j)%nat ->
  (forall i, (1 <= i < j)%nat -> c i < x) ->
  let '(k', kk') := pl_scan c x j n kk k1 in
  (kk' <= nc)%nat /\ (forall i, (1 <= i <= kk')%nat -> c i < x) /\
  ((kk' < nc)%nat -> k' = (kk' + 1)%nat /\ x <= c k').
Proof.
  induction n as [|n IH]; intros j kk k1 Hj Hk H1 Hl; cbn [pl_scan].
  - split; [lia|]. split; [intros; apply Hl; lia | lia].
  - destruct (Rleb x (c j)) eqn:E.
    + apply Rleb_true in E. split; [lia|]. split; [intros; apply Hl; lia|]. intros _. split; [lia | easy].
    + apply Rleb_false in E. apply IH; [lia | lia | lia|]. intros i Hi. destruct (Nat.eq_dec i j) as [->|N]; [easy | apply Hl; lia].
Qed.

Lemma total_one x : total [x] = x.
Proof. unfold total. cbn. lra. Qed.

Section Loops.
Variables u c : mem.
Variables nu nc : nat.
Hypothesis Hnu : (1 <= nu)%nat.
Hypothesis Hu : incr u nu.
Hypothesis Hc : incr c nc.

Lemma cless_is x kk : (kk <= nc)%nat -> (forall i, (1 <= i <= kk)%nat -> c i < x) -> ((kk < nc)%nat -> x <= c (kk + 1)%nat) -> cless c nc x = kk.
Proof.
  intros H1 H2 H3. apply cnt_split; [easy | |].
  - intros k Hk. apply Rlt_b_true. now apply H2.
  - intros k Hk. unfold Rlt_b. destruct (Rlt_dec _ _) as [L|L]; [|easy]. specialize (H3 ltac:(lia)).
    assert (X := Hc (kk + 1)%nat k ltac:(lia) ltac:(lia)). lra.
Qed.

Lemma ranks_ok i : (1 <= i <= nu)%nat -> pl_ranks u c nu nc i = (i + cless c nc (u i))%nat.
Proof.
  intros Hi. unfold pl_ranks. destruct (Nat.eqb_spec nc 0) as [E|N].
  - unfold cless. rewrite E. cbn. lia.
  - assert (P : forall m, (m <= nu)%nat -> exists k kk l,
      fold_left (fun st i =>
        let '(k, kk, k1, l) := st in
        let '(k1, kk) := if (kk =? nc)%nat then (k1, kk) else pl_scan c (u i) k (nc + 1 - k) kk k1 in
        (k1, kk, k1, put l i (i + kk)%nat)) (seq 1 m) (1%nat, 0%nat, 0%nat, fun _ => 0%nat) = (k, kk, (if (m =? 0)%nat then 0%nat else k), l) /\
      (kk <= nc)%nat /\ ((kk < nc)%nat -> k = (kk + 1)%nat) /\
      (forall i, (1 <= i <= kk)%nat -> forall j, (m <= j <= nu)%nat -> (1 <= j)%nat -> c i < u j) /\
      (forall i, (1 <= i <= m)%nat -> l i = (i + cless c nc (u i))%nat)).
    { induction m as [|m IH]; intros Hm.
      - exists 1%nat, 0%nat, (fun _ => 0%nat). cbn. repeat split; intros; lia.
      - destruct (IH ltac:(lia)) as (k & kk & l & E & A & B & C & D). rewrite seq_S, fold_left_app, E. cbn [fold_left Nat.add].
        destruct (Nat.eqb_spec kk nc) as [K|K].
        + exists (if (m =? 0)%nat then 0%nat else k), kk, (put l (S m) (S m + kk)%nat). split.
          { destruct (m =? 0)%nat eqn:M; [apply Nat.eqb_eq in M; subst m; cbn in E; congruence | easy]. }
          split; [easy|]. split; [lia|]. split; [intros i0 H1 j H2 H3; apply C; lia|].
          intros i0 H0. destruct (Nat.eq_dec i0 (S m)) as [->|N0]; [|rewrite put_ne by easy; apply D; lia].
          rewrite put_eq. f_equal. symmetry. apply cless_is; [easy | intros i0 H1; apply C; lia | lia].
        + assert (X := scan_ok c (u (S m)) nc (nc + 1 - k) k kk (if (m =? 0)%nat then 0%nat else k)).
          specialize (X ltac:(lia) ltac:(lia) ltac:(lia) ltac:(intros i0 H0; apply C; lia)).
          destruct (pl_scan c (u (S m)) k (nc + 1 - k) kk _) as [k' kk'] eqn:S1. destruct X as (X1 & X2 & X3).
          exists k', kk', (put l (S m) (S m + kk')%nat). split; [easy|]. split; [easy|]. split; [intros; now apply X3|]. split.
          { intros i0 H1 j H2 H3. assert (Y := Hu (S m) j ltac:(lia) ltac:(lia)). assert (Z := X2 i0 H1). lra. }
          intros i0 H0. destruct (Nat.eq_dec i0 (S m)) as [->|N0]; [|rewrite put_ne by easy; apply D; lia].
          rewrite put_eq. f_equal. symmetry. apply cless_is; [easy | easy |]. intros L. destruct (X3 L) as [-> Y]. exact Y. }
    destruct (P nu (le_n nu)) as (k & kk & l & E & _ & _ & _ & D). rewrite E. cbn [snd]. now apply D.
Qed.

Hypothesis Hlast : forall k, (1 <= k <= nc)%nat -> c k < u nu.
Let L := left_ u c nu nc.
Let QQ := Q u c nu nc.
Let GG := G u c nu nc.
Let lp i (H : (1 <= i <= nu)%nat) : 1 <= L i := left_pos u c nu nc Hnu i H.

Lemma curve_ok s v : let cv := pl_curve (INR (nu + nc)) (pl_ranks u c nu nc) nu s v in
  (forall i, (1 <= i <= nu)%nat -> p_s cv i = QQ i /\ p_v cv i = QQ i * sqrt (GG i)).
Proof.
  intros cv.
  assert (P : forall m, (m <= nu)%nat ->
    let cv := pl_curve (INR (nu + nc)) (pl_ranks u c nu nc) m s v in
    p_pt cv = QQ m /\ ((m < nu)%nat -> p_v1 cv = GG m /\ 0 <= GG m) /\
    (forall i, (1 <= i <= m)%nat -> p_s cv i = QQ i /\ p_v cv i = QQ i * sqrt (GG i))).
  { induction m as [|m IH]; intros Hm; cbv zeta.
    - cbn. split; [easy|]. split; [split; [easy | unfold GG; cbn; lra]|]. lia.
    - unfold pl_curve in *. rewrite seq_S, fold_left_app. cbn [fold_left Nat.add].
      destruct (IH ltac:(lia)) as (A & B & C). destruct (B ltac:(lia)) as [B1 B2].
      match goal with |- context [fold_left ?f ?l ?x] => set (st := fold_left f l x) in * end. clearbody st.
      assert (E : INR (nu + nc) - INR (pl_ranks u c nu nc (S m)) = L (S m) - 1).
      { rewrite ranks_ok by lia. unfold L, left_. lra. }
      rewrite E. replace (L (S m) - 1 + 1) with (L (S m)) by lra.
      assert (LP := lp (S m) ltac:(lia)).
      assert (QS : QQ (S m) = QQ m * ((L (S m) - 1) / L (S m))) by reflexivity.
      assert (GS : GG (S m) = GG m + 1 / ((L (S m) - 1) * L (S m))) by reflexivity.
      assert (QN := Q_nonneg u c nu nc Hnu (S m) Hm). fold QQ in QN.
      destruct (Rleb (L (S m) - 1) 0) eqn:Z; cbn [p_pt p_v1 p_s p_v].
      + apply Rleb_true in Z. rewrite A, <- QS. split; [easy|].
        assert (L1 : L (S m) = 1) by lra.
        split; [intros M; assert (X := left_two u c nu nc Hnu (S m) ltac:(lia)); fold (L (S m)) in X; lra|].
        intros i Hi. destruct (Nat.eq_dec i (S m)) as [->|N]; [|rewrite !put_ne by easy; apply C; lia].
        rewrite !put_eq. split; [easy|]. rewrite QS, L1. unfold Rdiv. ring.
      + apply Rleb_false in Z. rewrite A, <- QS, B1, <- GS. split; [easy|].
        assert (GP : 0 <= GG (S m)).
        { rewrite GS. apply Rplus_le_le_0_compat; [easy|]. left. apply Rdiv_lt_0_compat; [lra|]. apply Rmult_lt_0_compat; lra. }
        split; [easy|].
        intros i Hi. destruct (Nat.eq_dec i (S m)) as [->|N]; [|rewrite !put_ne by easy; apply C; lia].
        rewrite !put_eq. split; [easy|]. rewrite sqrt_mult by (easy || apply pow2_ge_0). now rewrite sqrt_pow2. }
  exact (proj2 (proj2 (P nu (le_n nu)))).
Qed.

(** The area under the curve between the events i and j *)
Variable s : mem.
Hypothesis Hs : forall i, (1 <= i <= nu)%nat -> s i = QQ i.
Definition steps (i j : nat) : R := total (map (fun k => QQ (k - 1)%nat * (u k - u (k - 1)%nat)) (seq (i + 1) (j - i))).
Lemma steps_S i j : (i <= j)%nat -> steps i (S j) = steps i j + QQ j * (u (S j) - u j).
Proof.
  intros H. unfold steps. replace (S j - i)%nat with (S (j - i)) by lia. rewrite seq_S, map_app, total_app.
  replace (i + 1 + (j - i))%nat with (S j) by lia. cbn [map]. rewrite total_one, Nat.sub_succ, Nat.sub_0_r. easy.
Qed.
Lemma steps_0 i : steps i i = 0.
Proof. unfold steps. rewrite Nat.sub_diag. easy. Qed.
Lemma steps_tied i j k : (1 <= i <= j)%nat -> (j <= k)%nat -> (k <= nu)%nat -> u j = u k -> steps i k = steps i j.
Proof.
  intros Hi Hjk Hk E. induction k as [|k IH]; [lia|]. destruct (Nat.eq_dec j (S k)) as [->|N]; [easy|].
  assert (X := Hu j k ltac:(lia) ltac:(lia)). assert (Y := Hu k (S k) ltac:(lia) ltac:(lia)).
  rewrite steps_S by lia. rewrite IH; [|lia|lia|lra]. replace (u (S k) - u k) with 0 by lra. lra.
Qed.

(** A cell after the events that holds more than the last event *)
Variable w : nat.
Hypothesis Hw : (nu < w)%nat.
Hypothesis Hwu : u nu < u w.

Lemma mean_ok : forall fuel i k m, (w + 1 <= fuel + i + k)%nat -> (2 <= i)%nat -> ((k = 0)%nat -> (i <= nu + 1)%nat) -> (i - 1 <= nu)%nat -> (i + k <= w)%nat ->
  (forall j, (i - 1 <= j < i + k)%nat -> (j <= nu)%nat -> u j = u (i - 1)%nat) ->
  pl_mean fuel u s nu i k m = Ok (m + steps (i - 1) nu).
Proof.
  induction fuel as [|fuel IH]; intros i k m Hf Hi Hk Hin Hiw Ht; [lia|]. cbn [pl_mean].
  destruct (Reqb (u (i + k)%nat) (u (i - 1)%nat)) eqn:E.
  - apply Reqb_true in E. apply IH; try lia.
    + destruct (Nat.eq_dec (i + k) w) as [Z|Z]; [|lia]. rewrite Z in E. assert (X := Hu (i - 1)%nat nu ltac:(lia) ltac:(lia)). lra.
    + intros j Hj Hjn. destruct (Nat.eq_dec j (i + k)) as [->|N]; [easy | apply Ht; lia].
  - apply Reqb_false in E. destruct (Nat.leb_spec (i + k) nu) as [LE|GT].
    + assert (ST : steps (i - 1) (i + k) = s (i + k - 1)%nat * (u (i + k)%nat - u (i - 1)%nat)).
      { replace (i + k)%nat with (S (i + k - 1)) at 1 by lia. rewrite steps_S by lia.
        rewrite (steps_tied (i - 1) (i - 1) (i + k - 1)) by (try lia; symmetry; apply Ht; lia). rewrite steps_0, Hs by lia.
        replace (S (i + k - 1)) with (i + k)%nat by lia. rewrite (Ht (i + k - 1)%nat) by lia. lra. }
      assert (AD : steps (i - 1) nu = steps (i - 1) (i + k) + steps (i + k) nu).
      { unfold steps. rewrite <- total_app, <- map_app. replace (i + k + 1)%nat with (i - 1 + 1 + (i + k - (i - 1)))%nat by lia.
        rewrite <- seq_app. do 3 f_equal. lia. }
      destruct (Nat.ltb_spec (i + k) nu) as [LT|GE].
      * rewrite IH; try lia.
        -- replace (i + k + 1 - 1)%nat with (i + k)%nat by lia. f_equal. rewrite AD, ST. lra.
        -- intros j Hj Hjn. f_equal. lia.
      * f_equal. rewrite AD, ST. replace (i + k)%nat with nu by lia. rewrite steps_0. lra.
    + f_equal. rewrite (steps_tied (i - 1) (i - 1) nu); [rewrite steps_0; lra | lia | lia | lia |].
      destruct (Nat.eq_dec (i - 1) nu) as [->|N]; [easy|]. symmetry. apply Ht; lia.
Qed.

Lemma area_in : forall fuel i a, (nu + 1 <= fuel + i)%nat -> (2 <= i <= nu)%nat -> pl_area fuel u s nu i 0 a = Ok (a + steps (i - 1) nu).
Proof.
  induction fuel as [|fuel IH]; intros i a Hf Hi; [lia|]. cbn [pl_area]. rewrite !Nat.add_0_r.
  replace (i <=? nu)%nat with true by (symmetry; apply Nat.leb_le; lia). rewrite andb_false_r.
  assert (AD : steps (i - 1) nu = s (i - 1)%nat * (u i - u (i - 1)%nat) + steps i nu).
  { unfold steps. replace (nu - (i - 1))%nat with (S (nu - i)) by lia. cbn [seq map].
    replace (i - 1 + 1)%nat with i by lia. replace (S i) with (i + 1)%nat by lia. unfold total. cbn [fold_right]. rewrite Hs by lia. lra. }
  destruct (Nat.ltb_spec i nu) as [LT|GE].
  - rewrite IH by lia. replace (i + 1 - 1)%nat with i by lia. f_equal. rewrite AD. lra.
  - f_equal. rewrite AD. replace i with nu by lia. rewrite steps_0. lra.
Qed.
(** With one event *)
Lemma area_one fuel a : nu = 1%nat -> u 2%nat <> u 1%nat -> pl_area (S fuel) u s nu 2 0 a = Ok (a + s 1%nat * (u 2%nat - u 1%nat)).
Proof.
  intros N D. cbn [pl_area]. change (2 + 0)%nat with 2%nat. change (2 - 1)%nat with 1%nat.
  replace (Reqb (u 2%nat) (u 1%nat)) with false by (unfold Reqb; now destruct (Req_EM_T _ _)). rewrite N. easy.
Qed.

Lemma tied_in : forall fuel j kd, (w + 1 <= fuel + j)%nat \/ (w + 1 <= fuel + (j - 1 + kd))%nat -> (2 <= j)%nat -> (1 <= kd)%nat -> (j - 1 <= nu)%nat ->
  (j - 1 + kd <= w)%nat ->
  (forall i, (j - 1 <= i < j - 1 + kd)%nat -> (i <= nu)%nat -> u i = u (j - 1)%nat) ->
  exists kd', pl_tied fuel u j kd = Ok kd' /\ (kd <= kd')%nat /\
    (forall i, (j - 1 <= i < j - 1 + kd')%nat -> (i <= nu)%nat -> u i = u (j - 1)%nat) /\
    ((j - 1 + kd' <= nu)%nat -> u (j - 1)%nat < u (j - 1 + kd')%nat).
Proof.
  induction fuel as [|fuel IH]; intros j kd Hf Hj Hkd Hjn Hw2 Ht; [lia|]. cbn [pl_tied].
  destruct (Rleb (u (j - 1 + kd)%nat) (u (j - 1)%nat)) eqn:E.
  - apply Rleb_true in E.
    assert (NW : (j - 1 + kd <> w)%nat). { intros Z. rewrite Z in E. assert (X := Hu (j - 1)%nat nu ltac:(lia) ltac:(lia)). lra. }
    destruct (IH j (kd + 1)%nat) as (kd' & P & A & B & C); try lia.
    + intros i Hi Hin. destruct (Nat.eq_dec i (j - 1 + kd)) as [->|N]; [|apply Ht; lia].
      assert (X := Hu (j - 1)%nat (j - 1 + kd)%nat ltac:(lia) ltac:(lia)). lra.
    + exists kd'. split; [easy|]. split; [lia|]. now split.
  - apply Rleb_false in E. exists kd. split; [easy|]. split; [lia|]. split; [easy|]. intros _. lra.
Qed.
End Loops.
