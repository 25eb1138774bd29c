(** FLSM: the permutations of a partition *)

From Coq Require Import List Bool Arith ZArith Reals Permutation Sorted Lra Lia.
From Verif Require Import Exn Instances McModel BaModel BaLemmas ObsModel AdModel AdLemmas AdLemmas2 SyModel SyLemmas SyLemmas2.
Import ListNotations.
Open Scope nat_scope.

Notation nt := (fun i l => nth i l 0%nat) (only parsing).

(** The step in the middle of the array: A is not decreasing, its last
    element is greater than x *)
Definition upto (A : list nat) (x c : nat) : Prop := c <= length A /\ forall j, j < length A -> (nth j A 0 <= x <-> j < c).
Lemma upto_ex : forall A x, (forall j, j + 1 < length A -> nth j A 0 <= nth (j + 1) A 0) -> exists c, upto A x c.
Proof.
  induction A as [|y A IH]; intros x H; [exists 0; split; [apply Nat.le_refl|intros; cbn in *; lia]|].
  destruct (Nat.leb_spec y x).
  - destruct (IH x) as [c [C1 C2]]; [intros j Hj; specialize (H (S j)); cbn [length Nat.add nth] in H; apply H; lia|].
    exists (S c). split; [cbn; lia|]. intros [|j] Hj; cbn [nth length] in *; [split; intros; lia|]. rewrite C2 by lia. lia.
  - exists 0. split; [lia|]. intros j Hj. split; [|lia]. intros Q. exfalso.
    assert (M : forall j, j < length (y :: A) -> y <= nth j (y :: A) 0).
    { clear j Hj Q. induction j as [|j IHj]; intros Hj; [cbn; lia|]. specialize (IHj ltac:(lia)). specialize (H j ltac:(lia)). replace (j + 1) with (S j) in H by lia. lia. }
    specialize (M j Hj). lia.
Qed.

Section Turn.
Variables (A T : list nat) (x c : nat).
Let L := length A.
Let p := A ++ x :: T.
Hypothesis L2 : 2 <= L.
Hypothesis cut : upto A x c.
Hypothesis c_lt : c < L.

Lemma p_len : length p = L + S (length T).
Proof. unfold p. rewrite app_length. reflexivity. Qed.
Lemma p_A : forall j, j < L -> nth j p 0 = nth j A 0.
Proof. intros j H. unfold p. now apply app_nth1. Qed.

Definition turned (l : nat) (st : list nat * nat * option nat) : Prop :=
  let '(mp, ixchng, lxchng) := st in
  length mp = length p /\ (forall j, nth j mp 0 = if (Nat.ltb j l || (Nat.leb (L - l) j && Nat.ltb j L))%bool then nth (L - 1 - j) A 0 else nth j p 0) /\
  ixchng = L - Nat.min l c /\ (1 <= l -> lxchng = Some (Nat.min l (L - c))).
Lemma turn_ok : exists mp ixchng lxchng, flsm_turn (L + 1) x p = Ok (mp, ixchng, lxchng) /\ turned (L / 2) (mp, ixchng, lxchng).
Proof.
  unfold flsm_turn. replace (L + 1 - 1) with L by lia. assert (H2 : 2 * (L / 2) <= L) by (apply Nat.mul_div_le; lia).
  destruct (iter_up _ (fun i st => turned (i - 1) st) (L / 2) 1 (fun l st =>
    let '(mp, ixchng, lxchng) := (st : list nat * nat * option nat) in
    let! mpl := rd1 mp l in
    let imnusl := (L + 1 - l)%nat in
    let! b := rd1 mp imnusl in
    let! mp := wr1 mp l b in
    let! mp := wr1 mp imnusl mpl in
    let ixchng := if Nat.leb mpl x then (ixchng - 1)%nat else ixchng in
    let lxchng := if Nat.ltb x b then Some l else lxchng in
    Ok (mp, ixchng, lxchng)) (p, L, None)) as (st & E & P).
  - cbn [Nat.sub turned]. split; [reflexivity|]. split; [|split; [lia|lia]]. intros j. replace (Nat.ltb j 0) with false by (symmetry; apply Nat.ltb_ge; lia). cbn [orb].
    enough (Q : (Nat.leb (L - 0) j && Nat.ltb j L)%bool = false) by (now rewrite Q). apply andb_false_iff. destruct (Nat.leb_spec (L - 0) j); [right; apply Nat.ltb_ge; lia|now left].
  - intros l [[mp ix] lx] Hl (L1 & N & E1 & E2). assert (PL := p_len).
    cbv zeta. rewrite (rd1_nth _ mp l 0) by lia. cbv beta iota. rewrite (rd1_nth _ mp (L + 1 - l) 0) by lia. cbv beta iota. rewrite wr1_upd by lia. rewrite wr1_upd by (rewrite upd_len by lia; lia).
    assert (V1 : nth (l - 1) mp 0 = nth (l - 1) A 0).
    { rewrite N. replace (Nat.ltb (l - 1) (l - 1)) with false by (symmetry; apply Nat.ltb_ge; lia). cbn [orb]. replace (Nat.leb (L - (l - 1)) (l - 1)) with false by (symmetry; apply Nat.leb_gt; lia). cbn [andb]. apply p_A. lia. }
    assert (V2 : nth (L + 1 - l - 1) mp 0 = nth (L - l) A 0).
    { replace (L + 1 - l - 1) with (L - l) by lia. rewrite N. replace (Nat.ltb (L - l) (l - 1)) with false by (symmetry; apply Nat.ltb_ge; lia). cbn [orb].
      replace (Nat.leb (L - (l - 1)) (L - l)) with false by (symmetry; apply Nat.leb_gt; lia). cbn [andb]. apply p_A. lia. }
    rewrite V1, V2. eexists. split; [reflexivity|]. cbn [Nat.sub]. rewrite Nat.sub_0_r. unfold turned. replace (L + 1 - l - 1) with (L - l) by lia.
    destruct cut as [C1 C2]. fold L in C1, C2. split; [rewrite !upd_len; [exact L1|lia|rewrite upd_len by lia; lia]|]. split; [|split].
    + intros j. rewrite nth_upd' by (rewrite upd_len by lia; lia). destruct (Nat.eqb_spec j (L - l)) as [->|N1].
      * replace (Nat.ltb (L - l) l) with false by (symmetry; apply Nat.ltb_ge; lia). replace (Nat.leb (L - l) (L - l)) with true by (symmetry; apply Nat.leb_le; lia). replace (Nat.ltb (L - l) L) with true by (symmetry; apply Nat.ltb_lt; lia).
        cbn [orb andb]. f_equal. lia.
      * rewrite nth_upd' by lia. destruct (Nat.eqb_spec j (l - 1)) as [->|N2].
        -- replace (Nat.ltb (l - 1) l) with true by (symmetry; apply Nat.ltb_lt; lia). cbn [orb]. f_equal. lia.
        -- rewrite N. replace (Nat.ltb j l) with (Nat.ltb j (l - 1)) by (destruct (Nat.ltb_spec j l), (Nat.ltb_spec j (l - 1)); (reflexivity || lia)).
           replace (Nat.leb (L - l) j && Nat.ltb j L)%bool with (Nat.leb (L - (l - 1)) j && Nat.ltb j L)%bool; [reflexivity|].
           destruct (Nat.leb_spec (L - l) j), (Nat.leb_spec (L - (l - 1)) j); (reflexivity || lia).
    + assert (Q := C2 (l - 1) ltac:(lia)). destruct (Nat.leb_spec (nth (l - 1) A 0) x); lia.
    + intros _. assert (Q := C2 (L - l) ltac:(lia)). destruct (Nat.ltb_spec x (nth (L - l) A 0)).
      * f_equal. lia.
      * assert (l <> 1) by lia. rewrite E2 by lia. f_equal. lia.
  - destruct st as [[mp ix] lx]. exists mp, ix, lx. split; [exact E|]. replace (1 + L / 2 - 1) with (L / 2) in P by lia. exact P.
Qed.
End Turn.

(** The next permutation *)
Lemma next_scan : forall p is n, (forall i, In i is -> 2 <= i <= length p /\ nth (i - 2) p 0 <= nth (i - 1) p 0) -> flsm_next p (is ++ n) = flsm_next p n.
Proof.
  intros p is n. induction is as [|i is IH]; intros H; [reflexivity|]. cbn [app flsm_next]. destruct (H i (or_introl eq_refl)) as [Hi Q].
  rewrite (rd1_nth _ p (i - 1) 0) by lia. rewrite (rd1_nth _ p i 0) by lia. replace (i - 1 - 1) with (i - 2) by lia. rewrite (proj2 (Nat.leb_le _ _) Q). apply IH. intros j Hj. apply H. now right.
Qed.
Definition asc (l : list nat) : Prop := forall j, j + 1 < length l -> nth j l 0 <= nth (j + 1) l 0.
Lemma next_none : forall p, asc p -> flsm_next p (seq 2 (length p - 1)) = Ok None.
Proof.
  intros p H. rewrite <- (app_nil_r (seq 2 _)), next_scan; [reflexivity|]. intros i Hi. apply in_seq in Hi. split; [lia|]. specialize (H (i - 2) ltac:(lia)). now replace (i - 2 + 1) with (i - 1) in H by lia.
Qed.

Lemma nth_mid : forall (B1 B2 : list nat) y d, nth (length B1) (B1 ++ y :: B2) d = y.
Proof. intros. rewrite app_nth2 by lia. now rewrite Nat.sub_diag. Qed.
Lemma upd_mid : forall (B1 B2 : list nat) y x, upd (length B1) x (B1 ++ y :: B2) = B1 ++ x :: B2.
Proof. intros. unfold upd. rewrite firstn_app, firstn_all, Nat.sub_diag, firstn_O, app_nil_r. f_equal. f_equal. rewrite skipn_app, skipn_all2 by lia. replace (S (length B1) - length B1) with 1 by lia. reflexivity. Qed.

Lemma skip_nth : forall k (l : list nat), k < length l -> skipn k l = nth k l 0 :: skipn (S k) l.
Proof. induction k as [|k IH]; intros [|z l] H; cbn [length] in H; try lia; [reflexivity|]. cbn [skipn nth]. rewrite IH by lia. reflexivity. Qed.
Lemma next_some : forall A x T, A <> [] -> asc A -> x < last A 0 ->
  exists B1 y B2, rev A = B1 ++ y :: B2 /\ x < y /\ (forall b, In b B2 -> b <= x) /\
    flsm_next (A ++ x :: T) (seq 2 (length (A ++ x :: T) - 1)) = Ok (Some (B1 ++ x :: B2 ++ y :: T)).
Proof.
  intros A x T NE HA Hx. destruct (upto_ex A x HA) as [c [C1 C2]].
  assert (Ll : 1 <= length A) by (destruct A; [congruence|cbn; lia]).
  assert (Lst : last A 0 = nth (length A - 1) A 0).
  { destruct (exists_last NE) as (A' & z & ->). rewrite last_last, app_length. cbn [length]. replace (length A' + 1 - 1) with (length A') by lia. now rewrite nth_mid. }
  assert (Cl : c < length A) by (destruct (Nat.lt_ge_cases c (length A)); [assumption|]; specialize (C2 (length A - 1) ltac:(lia)); lia).
  set (L := length A) in *.
  (* the parts of rev A *)
  assert (LR : length (rev A) = L) by apply rev_length.
  set (B1 := firstn (L - c - 1) (rev A)). set (y := nth (L - c - 1) (rev A) 0). set (B2 := skipn (L - c) (rev A)).
  assert (LB1 : length B1 = L - c - 1) by (unfold B1; rewrite firstn_length; lia).
  assert (RA : rev A = B1 ++ y :: B2).
  { unfold B1, B2, y. rewrite <- (firstn_skipn (L - c - 1) (rev A)) at 1. f_equal. rewrite skip_nth by lia. repeat f_equal. lia. }
  assert (Y : y = nth c A 0) by (unfold y; rewrite rev_nth by lia; f_equal; fold L; lia).
  exists B1, y, B2. split; [exact RA|]. split; [rewrite Y; specialize (C2 c ltac:(lia)); lia|]. split.
  { intros b Hb. apply (In_nth _ _ 0) in Hb. destruct Hb as (k & Hk & <-). unfold B2 in *. rewrite skipn_length, LR in Hk.
    assert (N : nth k (skipn (L - c) (rev A)) 0 = nth (L - c + k) (rev A) 0).
    { clear. generalize (L - c) (rev A). intros q. induction q as [|q IH]; intros l; [reflexivity|]. destruct l as [|z l]; [now destruct k|]. cbn [skipn Nat.add nth]. apply IH. }
    rewrite N, rev_nth by lia. fold L. apply C2; lia. }
  set (p := A ++ x :: T). assert (LP : length p = L + S (length T)) by (unfold p; rewrite app_length; reflexivity).
  replace (length p - 1) with ((L - 1) + S (length T)) by lia. rewrite seq_app, next_scan.
  2: { intros i Hi. apply in_seq in Hi. split; [lia|]. unfold p. rewrite !app_nth1 by (fold L; lia). specialize (HA (i - 2)). fold L in HA. specialize (HA ltac:(lia)). now replace (i - 2 + 1) with (i - 1) in HA by lia. }
  cbn [seq]. replace (2 + (L - 1)) with (L + 1) by lia. cbn [flsm_next].
  rewrite (rd1_nth _ p (L + 1 - 1) 0) by lia. rewrite (rd1_nth _ p (L + 1) 0) by lia. replace (L + 1 - 1) with L by lia.
  assert (PX : nth L p 0 = x) by (unfold p, L; apply nth_mid). assert (PA : nth (L - 1) p 0 = last A 0) by (unfold p; rewrite app_nth1 by (fold L; lia); now rewrite Lst).
  rewrite PX, PA. replace (Nat.leb (last A 0) x) with false by (symmetry; apply Nat.leb_gt; exact Hx).
  assert (Fin : forall mp, mp = rev A ++ x :: T -> (let! b := rd1 mp (L - c) in let! mp := wr1 mp (L + 1) b in let! mp := wr1 mp (L - c) x in Ok (Some mp)) = Ok (Some (B1 ++ x :: B2 ++ y :: T))).
  { intros mp ->. assert (LM : length (rev A ++ x :: T) = L + S (length T)) by (rewrite app_length, LR; reflexivity).
    rewrite (rd1_nth _ _ (L - c) 0) by lia. rewrite app_nth1 by lia. fold y. rewrite wr1_upd by lia. replace (L + 1 - 1) with (length (rev A)) by lia. rewrite upd_mid.
    rewrite wr1_upd by (rewrite app_length, LR; cbn; lia). rewrite RA, <- app_assoc. cbn [app]. rewrite <- LB1, upd_mid. reflexivity. }
  destruct (Nat.eqb_spec (L + 1) 2) as [E2|N2].
  - assert (Q : L - c = L) by lia. rewrite Q in Fin. apply Fin. unfold p. f_equal. clear - E2. unfold L in E2. destruct A as [|z [|]]; cbn in *; (reflexivity || lia).
  - destruct (turn_ok A T x c ltac:(fold L; lia) (conj C1 C2)) as (mp & ix & lx & E & (M1 & M2 & M3 & M4)); [exact Cl|]. fold L in E, M1, M2, M3, M4. fold p in E, M1, M2. rewrite E.
    assert (H2 : 1 <= L / 2) by (apply Nat.div_le_lower_bound; lia). assert (H3 : 2 * (L / 2) <= L) by (apply Nat.mul_div_le; lia). assert (H4 : L <= 2 * (L / 2) + 1) by (assert (Q := Nat.div_mod L 2 ltac:(lia)); assert (Q2 := Nat.mod_upper_bound L 2 ltac:(lia)); lia).
    assert (MP : mp = rev A ++ x :: T).
    { apply (nth_ext _ _ 0 0); [rewrite M1, LP, app_length, LR; reflexivity|]. intros j _. rewrite M2.
      destruct (Nat.ltb_spec j L) as [J|J].
      - rewrite app_nth1 by lia. rewrite rev_nth by (fold L; lia). fold L. destruct (Nat.ltb_spec j (L / 2)) as [J1|J1]; cbn [orb]; [f_equal; lia|].
        destruct (Nat.leb_spec (L - L / 2) j) as [J2|J2]; cbn [andb]; [f_equal; lia|]. unfold p. rewrite app_nth1 by (fold L; lia). f_equal. lia.
      - replace (Nat.ltb j (L / 2)) with false by (symmetry; apply Nat.ltb_ge; lia). rewrite andb_false_r. cbn [orb]. unfold p. rewrite !app_nth2 by lia. now rewrite LR. }
    assert (IX : forall b, rd1 mp ix = Ok b -> (if Nat.leb b x then match lx with Some l => Ok (mp, l) | None => Err BadMemory end else Ok (mp, ix)) = Ok (mp, L - c)).
    { intros b Hb. rewrite (rd1_nth _ mp ix 0) in Hb by (rewrite M1; lia). injection Hb as <-. rewrite MP at 1. rewrite app_nth1 by lia. rewrite rev_nth by (fold L; lia). fold L.
      replace (L - S (ix - 1)) with (Nat.min (L / 2) c) by lia. specialize (C2 (Nat.min (L / 2) c) ltac:(lia)). rewrite (M4 H2).
      destruct (Nat.leb_spec (nth (Nat.min (L / 2) c) A 0) x); do 2 f_equal; lia. }
    rewrite (rd1_nth _ mp ix 0) by (rewrite M1; lia). rewrite (IX _ (rd1_nth _ mp ix 0 ltac:(rewrite M1; lia))). apply Fin. exact MP.
Qed.
