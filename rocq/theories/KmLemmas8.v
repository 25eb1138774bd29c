(** Lemmas on KMDIF, QUART and KM.py *)

From Coq Require Import List Bool Arith ZArith Reals Lra Lia Permutation.
From Verif Require Import Exn Instances McModel BaModel KmModel KmSpec KmLemmas KmLemmas2 KmLemmas3 KmLemmas7.
Import ListNotations.
Open Scope R_scope.

Section Bins.
Variables f zu bs bl : mem.
Variables iu lstep : nat.
Hypothesis Hiu : (1 <= iu)%nat.
Hypothesis Hz : incr zu iu.
Hypothesis Hb : forall j, bs (j + 1)%nat = bl j.
Hypothesis Hbl : forall j, bl j < bl (j + 1)%nat.

Definition inbin (j k : nat) : bool := Rle_b (bs j) (zu k) && Rlt_b (zu k) (bl j).
Definition insum (j i : nat) : R := total (map f (filter (inbin j) (seq 1 i))).
Lemma insum_S j i : insum j (S i) = insum j i + if inbin j (S i) then f (S i) else 0.
Proof.
  unfold insum. rewrite seq_S, filter_app, map_app, total_app. cbn [filter Nat.add]. destruct (inbin j (S i)); cbn [map]; [now rewrite total_one|].
  unfold total. cbn [fold_right]. lra.
Qed.
Lemma insum_none j i n : (i <= n)%nat -> (forall k, (i < k <= n)%nat -> inbin j k = false) -> insum j n = insum j i.
Proof.
  intros Hi H. induction n as [|n IH]; [now replace i with 0%nat by lia|]. destruct (Nat.eq_dec i (S n)) as [->|N]; [easy|].
  rewrite insum_S, (H (S n)) by lia. rewrite IH; [lra | lia |]. intros k Hk. apply H. lia.
Qed.
Lemma out_high j k : bl j <= zu k -> inbin j k = false.
Proof. intros H. unfold inbin, Rlt_b. destruct (Rlt_dec _ _); [lra|]. apply andb_false_r. Qed.
Lemma out_low j k : zu k < bs j -> inbin j k = false.
Proof. intros H. unfold inbin, Rle_b. destruct (Rle_dec _ _); [lra|]. easy. Qed.

Lemma bins_ok : forall fuel i j diff, (iu + lstep + 2 <= fuel + i + j)%nat -> (1 <= fuel)%nat -> (1 <= i <= iu)%nat -> (1 <= j <= lstep + 1)%nat ->
  (forall k, (1 <= k < i)%nat -> zu k < bl j) -> diff j = insum j (i - 1) ->
  (forall j', (1 <= j' < j)%nat -> diff j' = insum j' iu) ->
  exists diff', dif_bins fuel f zu bs bl iu lstep i j diff = Ok diff' /\
    (forall j', (1 <= j' <= lstep)%nat -> diff' j' = insum j' iu) /\
    ((j <= lstep)%nat -> diff' (lstep + 1)%nat = 0) /\ (forall j', (lstep + 1 < j')%nat -> diff' j' = diff j').
Proof.
  induction fuel as [|fuel IH]; intros i j diff Hf Hf1 Hi Hj Hpast Hd Hdone; [lia|]. cbn [dif_bins].
  destruct (Nat.leb_spec j lstep) as [L|L].
  2:{ exists diff. split; [easy|]. split; [intros j' Hj'; apply Hdone; lia|]. split; [lia | easy]. }
  (* going on to the next bin *)
  assert (NEXT : forall diff0, diff0 j = insum j iu -> (forall j', (1 <= j' < j)%nat -> diff0 j' = insum j' iu) ->
    (forall j', (lstep + 1 < j')%nat -> diff0 j' = diff j') ->
    (forall k, (1 <= k < i)%nat -> zu k < bl j) ->
    exists diff', dif_bins fuel f zu bs bl iu lstep i (j + 1) (put diff0 (j + 1) 0) = Ok diff' /\
    (forall j', (1 <= j' <= lstep)%nat -> diff' j' = insum j' iu) /\
    ((j <= lstep)%nat -> diff' (lstep + 1)%nat = 0) /\ (forall j', (lstep + 1 < j')%nat -> diff' j' = diff j')).
  { intros diff0 A B C D.
    destruct (IH i (j + 1)%nat (put diff0 (j + 1) 0)) as (d' & E & F & G & H); try lia.
    - intros k Hk. specialize (D k Hk). assert (X := Hbl j). lra.
    - rewrite put_eq. rewrite (insum_none (j + 1) 0 (i - 1)); [easy | lia |].
      intros k Hk. apply out_low. rewrite Hb. apply D. lia.
    - intros j' Hj'. rewrite put_ne by lia. destruct (Nat.eq_dec j' j) as [->|N]; [easy|]. apply B. lia.
    - exists d'. split; [exact E|]. split; [exact F|]. split.
      + intros _. destruct (le_lt_dec (j + 1) lstep) as [L2|L2]; [now apply G|].
        assert (EQ : (j + 1)%nat = (lstep + 1)%nat) by lia.
        (* the loop stops at once *)
        rewrite EQ in E. destruct fuel as [|fuel']; [easy|]. cbn [dif_bins] in E.
        replace (lstep + 1 <=? lstep)%nat with false in E by (symmetry; apply Nat.leb_gt; lia). injection E as <-. apply put_eq.
      + intros j' Hj'. rewrite H by lia. rewrite put_ne by lia. now apply C. }
  assert (P1 : forall n, insum j i = n -> (forall k, (i < k <= iu)%nat -> inbin j k = false) -> insum j iu = n).
  { intros n E H. rewrite <- E. apply insum_none; [lia | easy]. }
  assert (SI : insum j i = insum j (i - 1) + if inbin j i then f i else 0).
  { replace i with (S (i - 1)) at 1 by lia. rewrite insum_S. now replace (S (i - 1)) with i by lia. }
  destruct (Rltb (zu i) (bs j)) eqn:E1.
  - apply Rltb_true in E1. rewrite (out_low j i E1) in SI.
    destruct (Nat.leb_spec iu i) as [L2|L2].
    + apply NEXT; try easy. rewrite Hd. symmetry. apply P1; [lra | lia].
    + destruct (IH (i + 1)%nat j diff) as (d' & E & F & G & H); try lia; try easy.
      * intros k Hk. destruct (Nat.eq_dec k i) as [->|N]; [|apply Hpast; lia].
        destruct (Nat.eq_dec j 0) as [->|N0]; [lia|]. assert (X := Hb (j - 1)%nat). assert (Y := Hbl (j - 1)%nat).
        replace (j - 1 + 1)%nat with j in * by lia. lra.
      * replace (i + 1 - 1)%nat with i by lia. lra.
      * exists d'. now repeat split.
  - apply Rltb_false in E1. destruct (Rleb (bl j) (zu i)) eqn:E2.
    + apply Rleb_true in E2. rewrite (out_high j i E2) in SI. apply NEXT; try easy. rewrite Hd. symmetry. apply P1; [lra|].
      intros k Hk. apply out_high. assert (X := Hz i k ltac:(lia) ltac:(lia)). lra.
    + apply Rleb_false in E2.
      assert (IN : inbin j i = true). { unfold inbin. apply andb_true_iff. split; [apply Rle_b_true; lra | apply Rlt_b_true; lra]. }
      rewrite IN in SI.
      assert (D2 : put diff j (diff j + f i) j = insum j i) by (rewrite put_eq, Hd; lra).
      destruct (Nat.ltb_spec i iu) as [L2|L2].
      * destruct (IH (i + 1)%nat j (put diff j (diff j + f i))) as (d' & E & F & G & H); try lia.
        -- intros k Hk. destruct (Nat.eq_dec k i) as [->|N]; [easy | apply Hpast; lia].
        -- now replace (i + 1 - 1)%nat with i by lia.
        -- intros j' Hj'. rewrite put_ne by lia. now apply Hdone.
        -- exists d'. split; [exact E|]. split; [exact F|]. split; [exact G|]. intros j' Hj'. rewrite H by lia. apply put_ne. lia.
      * apply NEXT.
        -- rewrite D2. symmetry. apply P1; [easy | lia].
        -- intros j' Hj'. rewrite put_ne by lia. now apply Hdone.
        -- intros j' Hj'. apply put_ne. lia.
        -- exact Hpast.
Qed.
End Bins.

(** The jump of the curve s at its point i *)
Lemma kmdif_ok iu s zu ntot start binsiz lstep m : (1 <= iu)%nat -> (1 <= lstep)%nat -> incr zu iu -> 0 < binsiz ->
  exists bs bl diff, kmdif iu s zu ntot start binsiz lstep m = Ok (bs, bl, diff) /\
   (forall j, bs j = start + binsiz * (INR j - 1) /\ bl j = start + binsiz * INR j) /\
   (forall j, (1 <= j <= lstep)%nat -> diff j = insum (dif_f s) zu bs bl j iu * ntot) /\
   diff (lstep + 1)%nat = 0 /\ (forall j, (lstep + 1 < j)%nat -> diff j = m j).
Proof.
  intros Hiu Hl Hz Hb. unfold kmdif.
  set (bs := fun j => start + binsiz * (INR j - 1)). set (bl := fun j => start + binsiz * INR j).
  destruct (bins_ok (dif_f s) zu bs bl iu lstep Hiu Hz) with (fuel := (iu + lstep + 2)%nat) (i := 1%nat) (j := 1%nat) (diff := put m 1 0) as (d & E & F & G & H); try lia.
  - intros j. unfold bs, bl. rewrite plus_INR. simpl. lra.
  - intros j. unfold bl. rewrite plus_INR. simpl. lra.
  - rewrite put_eq. easy.
  - rewrite E. exists bs, bl, (fun i => if ((1 <=? i) && (i <=? lstep))%nat then d i * ntot else d i). split; [easy|].
    split; [easy|]. split; [|split].
    + intros j Hj. replace ((1 <=? j) && (j <=? lstep))%nat with true by (symmetry; apply andb_true_iff; split; apply Nat.leb_le; lia).
      now rewrite F.
    + replace ((1 <=? lstep + 1) && (lstep + 1 <=? lstep))%nat with false by (symmetry; apply andb_false_iff; right; apply Nat.leb_gt; lia).
      now apply G.
    + intros j Hj. replace ((1 <=? j) && (j <=? lstep))%nat with false by (symmetry; apply andb_false_iff; right; apply Nat.leb_gt; lia).
      rewrite H by lia. apply put_ne. lia.
Qed.

(** QUART *)
Section Quart.
Variables u s : mem.
Variable iu : nat.
Hypothesis Hdec : forall i, (1 <= i < iu)%nat -> s (i + 1)%nat < s i.

Lemma dec_le i j : (1 <= i <= j)%nat -> (j <= iu)%nat -> s j <= s i.
Proof.
  intros Hi Hj. induction j as [|j IH]; [lia|]. destruct (Nat.eq_dec i (S j)) as [->|N]; [lra|].
  assert (X := Hdec j ltac:(lia)). replace (j + 1)%nat with (S j) in X by lia. specialize (IH ltac:(lia) ltac:(lia)). lra.
Qed.

Lemma scan_quart ty : forall n j, (1 <= j)%nat -> (j + n = iu)%nat -> (exists k, (j <= k < iu)%nat /\ s (k + 1)%nat <= ty <= s k) ->
  exists x k, quart_scan u s ty j n = Some (x, (k + 1)%nat) /\ (j <= k < iu)%nat /\ s (k + 1)%nat <= ty <= s k /\
    on_line (u k) (s k) (u (k + 1)%nat) (s (k + 1)%nat) x ty.
Proof.
  induction n as [|n IH]; intros j Hj Hn (k & Hk & S1 & S2); [lia|]. cbn [quart_scan].
  destruct (Rleb ty (s j)) eqn:E1; [destruct (Rleb (s (j + 1)%nat) ty) eqn:E2|]; cbn [andb].
  - apply Rleb_true in E1, E2. eexists _, j. split; [reflexivity|]. split; [lia|]. split; [easy|].
    unfold on_line. assert (X := Hdec j ltac:(lia)). field. lra.
  - apply Rleb_false in E2. destruct (IH (j + 1)%nat ltac:(lia) ltac:(lia)) as (x & k' & A & B & C).
    { exists k. split; [|easy]. destruct (Nat.eq_dec k j) as [->|N]; [lra | lia]. }
    exists x, k'. split; [exact A|]. split; [lia | exact C].
  - apply Rleb_false in E1. destruct (IH (j + 1)%nat ltac:(lia) ltac:(lia)) as (x & k' & A & B & C).
    { exists k. split; [|easy]. destruct (Nat.eq_dec k j) as [->|N]; [lra | lia]. }
    exists x, k'. split; [exact A|]. split; [lia | exact C].
Qed.

Lemma has_gap ty : (1 < iu)%nat -> ty <= s 1%nat -> s iu <= ty -> exists k, (1 <= k < iu)%nat /\ s (k + 1)%nat <= ty <= s k.
Proof.
  intros Hi H1 H2.
  assert (X : forall n, (1 <= n < iu)%nat -> (exists k, (1 <= k <= n)%nat /\ s (k + 1)%nat <= ty <= s k) \/ ty <= s (n + 1)%nat).
  { induction n as [|n IH]; intros Hn; [lia|]. destruct (Nat.eq_dec n 0) as [->|N].
    - destruct (Rle_lt_dec (s 2%nat) ty) as [L|L]; [left; exists 1%nat; split; [lia | now split] | right; cbn; lra].
    - destruct (IH ltac:(lia)) as [(k & K1 & K2)|K]; [left; exists k; split; [lia | easy]|].
      replace (n + 1)%nat with (S n) in K by lia. destruct (Rle_lt_dec (s (S n + 1)%nat) ty) as [L|L]; [left; exists (S n); split; [lia | easy] | right; lra]. }
  destruct (X (iu - 1)%nat ltac:(lia)) as [(k & K1 & K2)|K]; [exists k; split; [lia | easy]|].
  replace (iu - 1 + 1)%nat with iu in K by lia. exists (iu - 1)%nat. replace (iu - 1 + 1)%nat with iu by lia. split; [lia|].
  assert (Y := Hdec (iu - 1)%nat ltac:(lia)). replace (iu - 1 + 1)%nat with iu in Y by lia. lra.
Qed.

(** One percentile: the search may start at l if every gap before l is above it *)
Lemma one_ok ty l : (3 < iu)%nat -> (1 <= l)%nat -> ty < 1 -> s 1%nat < 1 -> s iu <= ty ->
  (forall k, (1 <= k < l)%nat -> (k < iu)%nat -> ~ s (k + 1)%nat <= ty) ->
  exists x l', quart_one u s iu ty l = (x, l') /\ (1 <= l')%nat /\ crossing u s iu ty x /\
    (l' = l /\ s 1%nat < ty \/ exists k, l' = (k + 1)%nat /\ (1 <= k < iu)%nat /\ s (k + 1)%nat <= ty <= s k).
Proof.
  intros Hi Hl Ht1 Hs1 Hlow Hskip. unfold quart_one. destruct (Rltb (s 1%nat) ty) eqn:E.
  - apply Rltb_true in E. eexists _, l. split; [reflexivity|]. split; [easy|]. split; [left; split; [easy|] | now left].
    unfold on_line. field. lra.
  - apply Rltb_false in E. destruct (has_gap ty ltac:(lia) E Hlow) as (k & K1 & K2).
    assert (LK : (l <= k)%nat). { destruct (le_lt_dec l k) as [L|L]; [easy|]. exfalso. apply (Hskip k); [lia | lia | lra]. }
    destruct (scan_quart ty (iu - l) l Hl ltac:(lia)) as (x & k' & A & B & C & D); [exists k; split; [lia | easy]|].
    rewrite A. exists x, (k' + 1)%nat. split; [easy|]. split; [lia|]. split; [right; exists k'; split; [lia | now split]|]. right. exists k'. split; [easy | split; [lia | easy]].
Qed.

Lemma quart_ok : (3 < iu)%nat -> s 1%nat < 1 -> s iu <= 1 / 4 ->
  (forall k, (1 <= k < iu)%nat -> ~ (s (k + 1)%nat <= 1 / 2 /\ 3 / 4 <= s k) /\ ~ (s (k + 1)%nat <= 1 / 4 /\ 1 / 2 <= s k)) ->
  exists a b c, quart u s iu = (a, b, c) /\ crossing u s iu (3 / 4) a /\ crossing u s iu (1 / 2) b /\ crossing u s iu (1 / 4) c.
Proof.
  intros Hi H1 Hlow Hgap. unfold quart. replace (iu <=? 3)%nat with false by (symmetry; apply Nat.leb_gt; lia).
  destruct (one_ok (3 / 4) 1 Hi ltac:(lia) ltac:(lra) H1 ltac:(lra) ltac:(intros; lia)) as (a & l1 & A1 & A2 & A3 & A4). rewrite A1.
  destruct (one_ok (1 / 2) l1 Hi A2 ltac:(lra) H1 ltac:(lra)) as (b & l2 & B1 & B2 & B3 & B4).
  { intros k Hk Hk2 Hs. destruct A4 as [[-> _]|(k' & -> & K1 & K2)]; [lia|].
    destruct (Nat.eq_dec k k') as [->|N]; [apply (proj1 (Hgap k' K1)); split; [easy | lra]|].
    assert (X := dec_le (k + 1) k' ltac:(lia) ltac:(lia)). lra. }
  rewrite B1.
  destruct (one_ok (1 / 4) l2 Hi B2 ltac:(lra) H1 ltac:(lra)) as (c & l3 & C1 & C2 & C3 & C4).
  { intros k Hk Hk2 Hs. destruct B4 as [[-> B4]|(k' & -> & K1 & K2)].
    - destruct A4 as [[-> _]|(k' & -> & K1 & K2)]; [lia|]. assert (X := dec_le 1 k' ltac:(lia) ltac:(lia)). lra.
    - destruct (Nat.eq_dec k k') as [->|N]; [apply (proj2 (Hgap k' K1)); split; [easy | lra]|].
      assert (X := dec_le (k + 1) k' ltac:(lia) ltac:(lia)). lra. }
  rewrite C1. exists a, b, c. repeat split; easy.
Qed.
End Quart.

(** The weights *)
Lemma weights_total cdf w : km_weights cdf = Ok w -> total w = nth 0 cdf 0 /\ length w = length cdf.
Proof.
  unfold km_weights. destruct cdf as [|x cdf] using rev_ind; [easy|]. rewrite rev_app_distr. cbn [rev app]. clear IHcdf. intros H. injection H as <-.
  rewrite app_length. cbn [length]. replace (length cdf + 1 - 1)%nat with (length cdf) by lia.
  set (l := cdf ++ [x]).
  assert (X : forall n, total (map (fun i => nth i l 0 - nth (i + 1) l 0) (seq 0 n)) = nth 0 l 0 - nth n l 0).
  { induction n as [|n IH]; [unfold total; cbn [seq map fold_right]; lra|]. rewrite seq_S, map_app, total_app, IH. cbn [map Nat.add]. rewrite total_one.
    replace (n + 1)%nat with (S n) by lia. lra. }
  split; [|rewrite app_length, map_length, seq_length; easy].
  rewrite total_app, total_one, X. unfold l at 2. rewrite app_nth2, Nat.sub_diag by lia. cbn [nth]. lra.
Qed.
