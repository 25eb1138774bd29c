(** The weights: WHT *)

From Coq Require Import List Bool Arith ZArith Reals Permutation Lra Lia.
From Verif Require Import Exn Instances McModel BaModel BaLemmas ObsModel AdModel AdLemmas AdLemmas2 SyModel SyLemmas.
Import ListNotations.
Open Scope R_scope.

Lemma rd1_nth : forall A (p : list A) i d, (1 <= i <= length p)%nat -> rd1 p i = Ok (nth (i - 1) p d).
Proof. intros A p [|i] d H; [lia|]. cbn [rd1]. rewrite Nat.sub_succ, Nat.sub_0_r. unfold rd. now rewrite (nth_error_nth' p d) by lia. Qed.
Lemma wr1_upd : forall A (p : list A) i v, (1 <= i <= length p)%nat -> wr1 p i v = Ok (upd (i - 1) v p).
Proof. intros A p [|i] v H; [lia|]. cbn [wr1]. rewrite Nat.sub_succ, Nat.sub_0_r. apply wr_ok. lia. Qed.

(** The table holds a from index 0 *)
Definition holds (prd : list (list R)) (N : nat) (a : nat -> nat -> R) : Prop := forall p j, (p <= j < N)%nat -> rd2 prd (p + 1) (j + 1) = Ok (a p j).

Section Wht.
Variable s d N : nat.
Variable m : list nat.
Variable prd : list (list R).
Variable a : nat -> nat -> R.
Hypothesis s_pos : (1 <= s)%nat.
Hypothesis m_len : length m = s.
Hypothesis m_sum : (list_sum m <= d)%nat.
Hypothesis d_N : (d < N)%nat.
Hypothesis tab : holds prd N a.

Definition mm (i : nat) : nat := nth i m 0%nat.
Definition aa (i k : nat) : R := a (mm i) (mm i + k)%nat.
Definition cv (I r : nat) : R := conv (map aa (rev (seq 0 I))) r.
Let m1 := (mm 0 + 1)%nat.
Let room := (d - list_sum m)%nat.

Lemma mm_le : forall i, (mm i <= list_sum m)%nat.
Proof.
  intros i. unfold mm. clear. revert i. induction m as [|x l IH]; intros [|i]; cbn [nth]; try lia; change (list_sum (x :: l)) with (x + list_sum l)%nat; [lia|]. specialize (IH i). lia.
Qed.
Lemma aa_read : forall i k mi, mi = (mm i + 1)%nat -> (k <= room)%nat -> rd2 prd mi (k + mi) = Ok (aa i k).
Proof. intros i k mi -> H. assert (Q := mm_le i). replace (k + (mm i + 1))%nat with (mm i + k + 1)%nat by lia. apply tab. unfold room in H. lia. Qed.

Lemma cv_1 : forall r, cv 1 r = aa 0 r.
Proof. intros r. unfold cv. cbn [seq rev app map]. apply conv_one. Qed.
Lemma cv_S : forall I r, cv (S I) r = sg r (fun k => aa I k * cv I (r - k)).
Proof. intros I r. unfold cv. rewrite seq_S, rev_app_distr. reflexivity. Qed.

Let loop (fuel i : nat) (st : wstate) := wht_loop fuel s m m1 prd i st.

(** Label 20 has set INTRPS(1); levels up to I are clear *)
Definition ready (I r : nat) (st : wstate) : Prop :=
  length (w_intrps st) = s /\ length (w_k st) = s /\ w_k1 st = (m1 + r)%nat /\ nth 0 (w_intrps st) 0 = aa 0 r /\
  (forall j, (1 <= j < I)%nat -> nth j (w_intrps st) 0 = 0 /\ nth j (w_k st) 0%nat = 0%nat).
(** Level I is done *)
Definition done (I r : nat) (st st' : wstate) : Prop :=
  length (w_intrps st') = s /\ length (w_k st') = s /\ w_k1 st' = w_k1 st /\ nth (I - 1) (w_intrps st') 0 = cv I r /\
  (forall j, (j < I - 1)%nat -> nth j (w_intrps st') 0 = 0) /\ (forall j, (1 <= j < I)%nat -> nth j (w_k st') 0%nat = 0%nat) /\
  (forall j, (I <= j)%nat -> nth j (w_intrps st') 0 = nth j (w_intrps st) 0 /\ nth j (w_k st') 0%nat = nth j (w_k st) 0%nat).

Lemma level : forall I, (1 <= I <= s)%nat -> forall r st, (r <= room)%nat -> ready I r st ->
  exists c st', (c + 1 <= 2 ^ (I - 1 + r))%nat /\ done I r st st' /\ forall fuel, loop (c + fuel) 2 st = loop fuel (S I) st'.
Proof.
  induction I as [|I IH]; [lia|]. intros HI. destruct (Nat.eq_dec I 0) as [->|NI].
  - intros r st Hr (L1 & L2 & K1 & E0 & Z). exists 0%nat, st. split; [cbn [Nat.add Nat.sub]; assert (Q := Nat.pow_nonzero 2 r); lia|]. split; [|reflexivity].
    split; [exact L1|]. split; [exact L2|]. split; [reflexivity|]. split; [cbn [Nat.sub]; now rewrite cv_1|]. split; [intros; lia|]. split; [intros; lia|]. intros; split; reflexivity.
  - specialize (IH ltac:(lia)).
    (* the turns of the loop for K(I+1) *)
    assert (Inner : forall r k st, (k + r <= room)%nat -> ready I r st -> nth I (w_k st) 0%nat = k ->
      exists c st', (c + 2 ^ (I - 1) <= 2 ^ (I + r))%nat /\
        (length (w_intrps st') = s /\ length (w_k st') = s /\ w_k1 st' = (m1 + r + k)%nat /\
         nth I (w_intrps st') 0 = nth I (w_intrps st) 0 + sg r (fun t => aa I (k + t) * cv I (r - t)) /\
         (forall j, (j < I)%nat -> nth j (w_intrps st') 0 = 0) /\ (forall j, (1 <= j < S I)%nat -> nth j (w_k st') 0%nat = 0%nat) /\
         (forall j, (S I <= j)%nat -> nth j (w_intrps st') 0 = nth j (w_intrps st) 0 /\ nth j (w_k st') 0%nat = nth j (w_k st) 0%nat)) /\
        forall fuel, loop (c + fuel) 2 st = loop fuel (S (S I)) st').
    { induction r as [|r IHr]; intros k st Hk Hst Ek.
      1: destruct (IH 0%nat st ltac:(lia) Hst) as (c & st1 & Hc & D & Run).
      2: destruct (IH (S r) st ltac:(lia) Hst) as (c & st1 & Hc & D & Run).
      all: destruct D as (L1 & L2 & K1 & E1 & Z1 & ZK & Same).
      all: destruct Hst as (L3 & L4 & K3 & _ & _).
      all: assert (Step : forall fuel, loop (S fuel) (S I) st1 =
        let ip := upd (I - 1) 0 (upd I (nth I (w_intrps st) 0 + aa I k * nth (I - 1) (w_intrps st1) 0) (w_intrps st1)) in
        let kk := upd I (k + 1)%nat (w_k st1) in
        if Nat.leb m1 (w_k1 st - 1) then
          (let! p := rd2 prd m1 (w_k1 st - 1) in let! ip := wr1 ip 1 p in loop fuel 2 (WState ip kk (w_k1 st - 1)))
        else loop fuel (S (S I)) (WState ip (upd I 0%nat kk) (w_k1 st - 1 + (k + 1)))).
      1, 3: intros fuel; unfold loop; cbn [wht_loop]; replace (Nat.ltb s (S I)) with false by (symmetry; apply Nat.ltb_ge; lia);
        rewrite (rd1_nth _ m (S I) 0%nat) by lia; rewrite (rd1_nth _ (w_k st1) (S I) 0%nat) by lia; replace (S I - 1)%nat with I by lia;
        rewrite (proj2 (Same I ltac:(lia))), Ek; fold (mm I); rewrite (aa_read I k) by (reflexivity || lia);
        rewrite (rd1_nth _ (w_intrps st1) (S I) 0) by lia; rewrite (rd1_nth _ (w_intrps st1) I 0) by lia; replace (S I - 1)%nat with I by lia;
        rewrite (proj1 (Same I ltac:(lia)));
        rewrite (wr1_upd _ (w_intrps st1) (S I)) by lia; replace (S I - 1)%nat with I by lia;
        rewrite (wr1_upd _ _ I) by (rewrite upd_len by lia; lia);
        rewrite (wr1_upd _ (w_k st1) (S I)) by lia; replace (S I - 1)%nat with I by lia; rewrite K1; cbv zeta;
        destruct (Nat.leb m1 (w_k1 st - 1)); [reflexivity|];
        rewrite (rd1_nth _ (upd I (k + 1)%nat (w_k st1)) (S I) 0%nat) by (rewrite upd_len by lia; lia); replace (S I - 1)%nat with I by lia;
        rewrite nth_upd' by lia; rewrite Nat.eqb_refl;
        rewrite (wr1_upd _ (upd I (k + 1)%nat (w_k st1)) (S I)) by (rewrite upd_len by lia; lia); now replace (S I - 1)%nat with I by lia.
      - (* r = 0 *)
        exists (c + 1)%nat. eexists. split; [|split].
        3: { intros fuel. replace (c + 1 + fuel)%nat with (c + S fuel)%nat by lia. rewrite Run, Step. cbv zeta.
             replace (Nat.leb m1 (w_k1 st - 1)) with false by (symmetry; apply Nat.leb_gt; unfold m1 in *; lia). reflexivity. }
        + rewrite Nat.add_0_r in *. assert (Q : (2 ^ I = 2 * 2 ^ (I - 1))%nat) by (replace I with (S (I - 1)) at 1 by lia; reflexivity). lia.
        + cbn [w_intrps w_k w_k1]. assert (U1 : length (upd I (nth I (w_intrps st) 0 + aa I k * nth (I - 1) (w_intrps st1) 0) (w_intrps st1)) = s) by (rewrite upd_len by lia; exact L1).
          assert (U2 : length (upd I (k + 1)%nat (w_k st1)) = s) by (rewrite upd_len by lia; exact L2).
          split; [rewrite upd_len by lia; exact U1|]. split; [rewrite upd_len by lia; exact U2|]. split; [unfold m1 in *; lia|].
          split; [|split; [|split]].
          * rewrite nth_upd' by lia. replace (Nat.eqb I (I - 1)) with false by (symmetry; apply Nat.eqb_neq; lia). rewrite nth_upd', Nat.eqb_refl by lia.
            rewrite sg_0, E1, Nat.add_0_r. reflexivity.
          * intros j Hj. rewrite nth_upd' by lia. destruct (Nat.eqb_spec j (I - 1)) as [->|N1]; [reflexivity|]. rewrite nth_upd' by lia.
            replace (Nat.eqb j I) with false by (symmetry; apply Nat.eqb_neq; lia). apply Z1. lia.
          * intros j Hj. rewrite nth_upd' by lia. destruct (Nat.eqb_spec j I) as [->|N1]; [reflexivity|]. rewrite nth_upd' by lia.
            replace (Nat.eqb j I) with false by (symmetry; apply Nat.eqb_neq; lia). apply ZK. lia.
          * intros j Hj. rewrite !nth_upd' by lia. replace (Nat.eqb j I) with false by (symmetry; apply Nat.eqb_neq; lia). replace (Nat.eqb j (I - 1)) with false by (symmetry; apply Nat.eqb_neq; lia). apply Same. lia.
      - (* S r *)
        pose (ip := upd (I - 1) 0 (upd I (nth I (w_intrps st) 0 + aa I k * nth (I - 1) (w_intrps st1) 0) (w_intrps st1))).
        pose (kk := upd I (k + 1)%nat (w_k st1)).
        assert (U1 : length ip = s) by (unfold ip; rewrite !upd_len; [exact L1|lia|rewrite upd_len by lia; lia]).
        assert (U2 : length kk = s) by (unfold kk; rewrite upd_len by lia; exact L2).
        pose (st2 := WState (upd 0 (aa 0 r) ip) kk (m1 + r)).
        assert (R2 : ready I r st2).
        { unfold st2. repeat split; cbn [w_intrps w_k w_k1].
          - rewrite upd_len by lia. exact U1.
          - exact U2.
          - rewrite nth_upd' by lia. replace (Nat.eqb j 0) with false by (symmetry; apply Nat.eqb_neq; lia). unfold ip.
            rewrite nth_upd' by (rewrite upd_len by lia; lia). destruct (Nat.eqb_spec j (I - 1)) as [->|N1]; [reflexivity|]. rewrite nth_upd' by lia.
            replace (Nat.eqb j I) with false by (symmetry; apply Nat.eqb_neq; lia). apply Z1. lia.
          - unfold kk. rewrite nth_upd' by lia. replace (Nat.eqb j I) with false by (symmetry; apply Nat.eqb_neq; lia). apply ZK. lia. }
        destruct (IHr (k + 1)%nat st2 ltac:(lia) R2) as (c2 & st3 & Hc2 & (M1 & M2 & M3 & M4 & M5 & M6 & M7) & Run2).
        { cbn [st2 w_k]. unfold kk. rewrite nth_upd', Nat.eqb_refl by lia. reflexivity. }
        exists (c + 1 + c2)%nat, st3. split; [|split].
        + assert (Q1 : (2 ^ (I + S r) = 2 * 2 ^ (I + r))%nat) by (replace (I + S r)%nat with (S (I + r)) by lia; reflexivity).
          assert (Q2 : (2 ^ (I - 1 + S r) = 2 ^ (I + r))%nat) by (f_equal; lia). lia.
        + split; [exact M1|]. split; [exact M2|]. split; [lia|]. split; [|split; [exact M5|split; [exact M6|]]].
          * rewrite M4. cbn [st2 w_intrps]. rewrite nth_upd' by lia. replace (Nat.eqb I 0) with false by (symmetry; apply Nat.eqb_neq; lia). unfold ip.
            rewrite nth_upd' by (rewrite upd_len by lia; lia). replace (Nat.eqb I (I - 1)) with false by (symmetry; apply Nat.eqb_neq; lia). rewrite nth_upd', Nat.eqb_refl by lia.
            rewrite sg_first, E1, Nat.add_0_r, Nat.sub_0_r. rewrite (sg_ext r (fun t => aa I (k + 1 + t) * cv I (r - t)) (fun i => aa I (k + S i) * cv I (S r - S i))); [ring|].
            intros i Hi. replace (k + 1 + i)%nat with (k + S i)%nat by lia. reflexivity.
          * intros j Hj. destruct (M7 j Hj) as [-> ->]. cbn [st2 w_intrps w_k]. unfold ip, kk.
            rewrite !nth_upd' by (repeat (rewrite upd_len; [|first [lia|rewrite upd_len by lia; lia]]); lia).
            replace (Nat.eqb j 0) with false by (symmetry; apply Nat.eqb_neq; lia). replace (Nat.eqb j I) with false by (symmetry; apply Nat.eqb_neq; lia). replace (Nat.eqb j (I - 1)) with false by (symmetry; apply Nat.eqb_neq; lia). apply Same. lia.
        + intros fuel. replace (c + 1 + c2 + fuel)%nat with (c + S (c2 + fuel))%nat by lia. rewrite Run, Step. cbv zeta.
          replace (Nat.leb m1 (w_k1 st - 1)) with true by (symmetry; apply Nat.leb_le; unfold m1 in *; lia).
          replace (w_k1 st - 1)%nat with (m1 + r)%nat by (unfold m1 in *; lia). rewrite (Nat.add_comm m1 r), (aa_read 0 r) by (reflexivity || lia).
          fold ip. fold kk. rewrite wr1_upd by lia. cbn [Nat.sub]. rewrite (Nat.add_comm r m1). apply Run2. }
    intros r st Hr Hst. destruct Hst as (L1 & L2 & K1 & E0 & Z).
    destruct (Inner r 0%nat st) as (c & st' & Hc & (M1 & M2 & M3 & M4 & M5 & M6 & M7) & Run).
    + lia.
    + repeat split; try assumption; apply Z; lia.
    + apply Z. lia.
    + exists c, st'. split; [|split; [|exact Run]].
      * replace (S I - 1)%nat with I by lia. assert (Q := Nat.pow_nonzero 2 (I - 1)). lia.
      * split; [exact M1|]. split; [exact M2|]. split; [lia|]. replace (S I - 1)%nat with I by lia.
        split; [rewrite M4, (proj1 (Z I ltac:(lia))), cv_S, Rplus_0_l; apply sg_ext; intros; reflexivity|]. split; [exact M5|]. split; [exact M6|exact M7].
Qed.

Lemma wht_is : wht s m (list_sum m) d prd = Ok (conv (map (fun j k => a j (j + k)%nat) m) (d - list_sum m)).
Proof.
  unfold wht. rewrite (rd1_nth _ m 1 0%nat) by lia. cbn [Nat.sub]. fold (mm 0). fold m1. fold room.
  rewrite (aa_read 0 room) by (reflexivity || lia). rewrite wr1_upd by (rewrite repeat_length; lia). cbn [Nat.sub].
  set (st0 := WState _ _ _).
  assert (R0 : ready s room st0).
  { unfold st0. repeat split; cbn [w_intrps w_k w_k1].
    - rewrite upd_len; rewrite repeat_length; lia.
    - apply repeat_length.
    - lia.
    - rewrite nth_upd' by (rewrite repeat_length; lia). replace (Nat.eqb j 0) with false by (symmetry; apply Nat.eqb_neq; lia). apply nth_repeat.
    - apply nth_repeat. }
  destruct (level s ltac:(lia) room st0 ltac:(lia) R0) as (c & st' & Hc & (L1 & _ & _ & E & _) & Run).
  assert (F : (2 ^ (s + d) = c + S (2 ^ (s + d) - c - 1))%nat).
  { assert (Q : (2 ^ (s - 1 + room) <= 2 ^ (s + d))%nat) by (apply Nat.pow_le_mono_r; unfold room; lia). lia. }
  rewrite F. unfold loop in Run. rewrite Run. cbn [wht_loop]. replace (Nat.ltb s (S s)) with true by (symmetry; apply Nat.ltb_lt; lia).
  rewrite (rd1_nth _ _ s 0) by lia. rewrite E. f_equal. unfold cv.
  rewrite (conv_perm (map aa (rev (seq 0 s))) (map aa (seq 0 s))) by (apply Permutation_map; symmetry; apply Permutation_rev).
  apply conv_ext. clear - m_len. unfold aa, mm.
  subst s. rewrite <- (map_map (fun i => nth i m 0%nat) (fun j k => a j (j + k)%nat)).
  replace (map (fun i => nth i m 0%nat) (seq 0 (length m))) with m.
  - generalize (map (fun j k => a j (j + k)%nat) m). intros l. induction l; constructor; auto.
  - clear. apply (nth_ext _ _ 0%nat 0%nat); [now rewrite map_length, seq_length|]. intros i Hi.
    rewrite (nth_indep (map _ _) 0%nat ((fun i => nth i m 0%nat) 0%nat)) by now rewrite map_length, seq_length. rewrite (map_nth (fun i => nth i m 0%nat)), seq_nth by exact Hi. reflexivity.
Qed.
End Wht.
