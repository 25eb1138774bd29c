(** Lemmas on KMADJ *)

From Coq Require Import List Bool Arith ZArith Reals Lra Lia Permutation.
From Verif Require Import Exn Instances McModel BaModel KmModel KmSpec KmLemmas KmLemmas2 KmLemmas3.
Import ListNotations.
Open Scope R_scope.

Lemma flips n t (f : mem) : (2 * t <= n + 1)%nat -> forall k,
  fold_left (fun f i => exchange f i (n - i + 1)) (seq 1 t) f k =
  if ((1 <=? k) && (k <=? t) || (n + 1 - t <=? k) && (k <=? n))%nat then f (n + 1 - k)%nat else f k.
Proof.
  induction t as [|t IH]; intros Ht k.
  - cbn [seq fold_left].
    destruct (Nat.leb_spec 1 k), (Nat.leb_spec k 0), (Nat.leb_spec (n + 1 - 0) k), (Nat.leb_spec k n); cbn [andb orb]; try easy; lia.
  - rewrite seq_S, fold_left_app. cbn [fold_left]. rewrite exchange_swap, IH by lia. unfold swap.
    replace (n - (1 + t) + 1)%nat with (n - t)%nat by lia. change (1 + t)%nat with (S t).
    assert (D : forall b1 b2 : bool, b1 = b2 -> forall x y : R, (if b1 then x else y) = if b2 then x else y) by (intros b1 b2 -> ; easy).
    repeat match goal with |- context [(?a =? ?b)%nat] => destruct (Nat.eqb_spec a b) end; subst;
    repeat match goal with |- context [(?a <=? ?b)%nat] => destruct (Nat.leb_spec a b) end; cbn [andb orb]; try lia; try easy; f_equal; lia.
Qed.

Lemma turn_f_ok n (f : mem) k : (1 <= k <= n)%nat -> turn_f n f k = f (n + 1 - k)%nat.
Proof.
  intros Hk. unfold turn_f. assert (X := Nat.div_mod_eq n 2). assert (Y := Nat.mod_upper_bound n 2 ltac:(lia)).
  rewrite flips by lia.
  repeat match goal with |- context [(?a <=? ?b)%nat] => destruct (Nat.leb_spec a b) end; cbn [andb orb]; try lia; try easy; f_equal; lia.
Qed.
Lemma turn_v_ok n (v : mem) k : (1 <= k < n)%nat -> turn_v n v k = v (n - k)%nat.
Proof.
  intros Hk. unfold turn_v. assert (X := Nat.div_mod_eq n 2). assert (Y := Nat.mod_upper_bound n 2 ltac:(lia)).
  assert (E : forall t, (t <= n / 2)%nat -> fold_left (fun v i => exchange v i (n - i)) (seq 1 t) v = fold_left (fun v i => exchange v i (n - 1 - i + 1)) (seq 1 t) v).
  { induction t as [|t IH]; intros Ht; [easy|]. rewrite seq_S, !fold_left_app, IH by lia. cbn [fold_left]. f_equal. lia. }
  rewrite E by lia. rewrite flips by lia.
  repeat match goal with |- context [(?a <=? ?b)%nat] => destruct (Nat.leb_spec a b) end; cbn [andb orb]; try lia; try easy; f_equal; lia.
Qed.
Lemma turn_v_last n (v : mem) : (1 <= n)%nat -> turn_v n v n = v n.
Proof.
  intros Hn. unfold turn_v. assert (X := Nat.div_mod_eq n 2). assert (Y := Nat.mod_upper_bound n 2 ltac:(lia)).
  assert (E : forall t, (t <= n / 2)%nat -> fold_left (fun v i => exchange v i (n - i)) (seq 1 t) v n = v n).
  { induction t as [|t IH]; intros Ht; [easy|]. rewrite seq_S, fold_left_app. cbn [fold_left]. rewrite exchange_swap. unfold swap.
    destruct (Nat.eqb_spec n (n - (1 + t))); [lia|]. destruct (Nat.eqb_spec n (1 + t)) as [F|F]; [|apply IH; lia].
    lia. }
  now apply E.
Qed.

Lemma turn_pairs n t (z : mem) : (2 * t <= n)%nat -> forall k,
  fold_left (fun z i => turn_pair n i z) (seq 1 t) z k =
  if ((1 <=? k) && (k <=? t) || (n + 1 - t <=? k) && (k <=? n))%nat then - z (n + 1 - k)%nat else z k.
Proof.
  induction t as [|t IH]; intros Ht k.
  - cbn [seq fold_left].
    destruct (Nat.leb_spec 1 k), (Nat.leb_spec k 0), (Nat.leb_spec (n + 1 - 0) k), (Nat.leb_spec k n); cbn [andb orb]; try easy; lia.
  - rewrite seq_S, fold_left_app. cbn [fold_left]. unfold turn_pair at 1, put. rewrite !IH by lia.
    replace (n - (1 + t) + 1)%nat with (n - t)%nat by lia. change (1 + t)%nat with (S t).
    repeat match goal with |- context [(?a =? ?b)%nat] => destruct (Nat.eqb_spec a b) end; subst;
    repeat match goal with |- context [(?a <=? ?b)%nat] => destruct (Nat.leb_spec a b) end; cbn [andb orb]; try lia; try easy;
    match goal with |- ?a * -1 = - ?b => replace b with a by (f_equal; lia); ring | |- _ => f_equal; lia end.
Qed.
Lemma turn_ok n (z : mem) k : (1 <= k <= n)%nat -> turn n z k = - z (n + 1 - k)%nat.
Proof.
  intros Hk. unfold turn. assert (X := Nat.div_mod_eq n 2). assert (Y := Nat.mod_upper_bound n 2 ltac:(lia)).
  assert (T := turn_pairs n (n / 2) z ltac:(lia)).
  destruct (Nat.eqb_spec (2 * (n / 2)) n) as [E|E].
  - rewrite T. repeat match goal with |- context [(?a <=? ?b)%nat] => destruct (Nat.leb_spec a b) end; cbn [andb orb]; try lia; try easy; f_equal; lia.
  - unfold put. rewrite !T.
    repeat match goal with |- context [(?a =? ?b)%nat] => destruct (Nat.eqb_spec a b) end; subst;
    repeat match goal with |- context [(?a <=? ?b)%nat] => destruct (Nat.leb_spec a b) end; cbn [andb orb]; try lia; try easy;
    match goal with |- ?a * -1 = - ?b => replace b with a by (f_equal; lia); ring | |- _ => f_equal; lia end.
Qed.
Lemma turn_beyond n (z : mem) k : (n < k)%nat -> turn n z k = z k.
Proof.
  intros Hk. unfold turn. assert (X := Nat.div_mod_eq n 2). assert (Y := Nat.mod_upper_bound n 2 ltac:(lia)).
  assert (T := turn_pairs n (n / 2) z ltac:(lia)).
  destruct (Nat.eqb_spec (2 * (n / 2)) n) as [E|E]; [|unfold put]; rewrite !T;
    repeat match goal with |- context [(?a =? ?b)%nat] => destruct (Nat.eqb_spec a b) end; subst;
    repeat match goal with |- context [(?a <=? ?b)%nat] => destruct (Nat.leb_spec a b) end; cbn [andb orb]; try lia; easy.
Qed.

Lemma close_ok k n (z : mem) i : close k n z i = if ((k <=? i) && (i <? n))%nat then z (i + 1)%nat else z i.
Proof.
  unfold close.
  assert (P : forall t i, fold_left (fun z i => put z i (z (i + 1)%nat)) (seq k t) z i = if ((k <=? i) && (i <? k + t))%nat then z (i + 1)%nat else z i).
  { induction t as [|t IH]; intros j.
    - cbn [seq fold_left]. destruct (Nat.leb_spec k j), (Nat.ltb_spec j (k + 0)); cbn [andb]; try easy; lia.
    - rewrite seq_S, fold_left_app. cbn [fold_left]. unfold put at 1. rewrite !IH.
      destruct (Nat.eqb_spec j (k + t)) as [->|N];
      repeat match goal with |- context [(?a <=? ?b)%nat] => destruct (Nat.leb_spec a b) end;
      repeat match goal with |- context [(?a <? ?b)%nat] => destruct (Nat.ltb_spec a b) end; cbn [andb]; try lia; easy. }
  rewrite P. 
  repeat match goal with |- context [(?a <=? ?b)%nat] => destruct (Nat.leb_spec a b) end;
  repeat match goal with |- context [(?a <? ?b)%nat] => destruct (Nat.ltb_spec a b) end; cbn [andb]; try lia; easy.
Qed.

Section Unique.
Variable good : R -> R -> R -> Prop.
Variable vals : R -> Prop.
Definition neat (a : adj) (k : nat) : Prop :=
  (1 <= a_iu a)%nat /\
  (forall i, (1 <= i < a_iu a)%nat -> a_zu a i <= a_zu a (i + 1)%nat) /\
  (forall i, (1 <= i < k)%nat -> a_zu a i < a_zu a (i + 1)%nat) /\
  (forall i, (1 <= i <= a_iu a)%nat -> i = a_iu a \/ a_zu a i < a_zu a (i + 1)%nat -> good (a_zu a i) (a_s a i) (a_v a i)) /\
  (forall t, vals t <-> exists i, (1 <= i <= a_iu a)%nat /\ a_zu a i = t).

Lemma neat_close a k : (1 <= k < a_iu a)%nat -> neat a k -> a_zu a k = a_zu a (k + 1)%nat ->
  neat (Adj (close k (a_iu a) (a_zu a)) (a_iu a - 1) (close k (a_iu a) (a_s a)) (close k (a_iu a) (a_v a))) k.
Proof.
  intros Hk (A & B & C & D & E) EQ. unfold neat. cbn [a_zu a_iu a_s a_v].
  assert (Z : forall z i, close k (a_iu a) z i = if ((k <=? i) && (i <? a_iu a))%nat then z (i + 1)%nat else z i) by (intros; apply close_ok).
  split; [lia|]. split; [|split; [|split]].
  - intros i Hi. rewrite !Z.
    destruct (Nat.leb_spec k i), (Nat.ltb_spec i (a_iu a)), (Nat.leb_spec k (i + 1)), (Nat.ltb_spec (i + 1) (a_iu a)); cbn [andb]; try lia.
    + apply B. lia.
    + replace (i + 1)%nat with k by lia. rewrite <- EQ. replace k with (i + 1)%nat by lia. apply B. lia.
    + apply B. lia.
  - intros i Hi. rewrite !Z.
    destruct (Nat.leb_spec k i), (Nat.ltb_spec i (a_iu a)), (Nat.leb_spec k (i + 1)), (Nat.ltb_spec (i + 1) (a_iu a)); cbn [andb]; try lia.
    + replace (i + 1)%nat with k by lia. rewrite <- EQ. replace k with (i + 1)%nat by lia. apply C. lia.
    + apply C. lia.
  - intros i Hi F. rewrite !Z in *.
    destruct (Nat.leb_spec k i), (Nat.ltb_spec i (a_iu a)); cbn [andb] in *; try lia.
    + apply D; [lia|]. destruct F as [F|F]; [left; lia|].
      destruct (Nat.leb_spec k (i + 1)), (Nat.ltb_spec (i + 1) (a_iu a)); cbn [andb] in *; try lia; first [now right | left; lia].
    + apply D; [lia|]. destruct F as [F|F]; [lia|]. right.
      destruct (Nat.leb_spec k (i + 1)), (Nat.ltb_spec (i + 1) (a_iu a)); cbn [andb] in *; try lia; try easy.
      replace (i + 1)%nat with k in * by lia. now rewrite EQ.
  - intros t. rewrite E. split.
    + intros [i [Hi <-]]. destruct (le_lt_dec i k) as [L|L].
      * exists i. split; [lia|]. rewrite Z. destruct (Nat.leb_spec k i), (Nat.ltb_spec i (a_iu a)); cbn [andb]; try easy.
        replace i with k by lia. now rewrite EQ.
      * exists (i - 1)%nat. split; [lia|]. rewrite Z. destruct (Nat.leb_spec k (i - 1)), (Nat.ltb_spec (i - 1) (a_iu a)); cbn [andb]; try lia.
        f_equal. lia.
    + intros [i [Hi <-]]. rewrite Z. destruct (Nat.leb_spec k i), (Nat.ltb_spec i (a_iu a)); cbn [andb]; [exists (i + 1)%nat | exists i | exists i | exists i]; split; try easy; lia.
Qed.

Lemma unique_ok : forall fuel k a, (a_iu a < fuel + k)%nat -> (1 <= k)%nat -> (1 <= fuel)%nat -> ((k < a_iu a)%nat \/ k = 1%nat /\ a_iu a = 1%nat) ->
  (a_iu a = 1%nat -> a_zu a 2%nat <> a_zu a 1%nat) -> neat a k ->
  exists a', unique fuel k a = Ok a' /\ neat a' (a_iu a').
Proof.
  induction fuel as [|fuel IH]; intros k a Hf Hk Hf1 Hka H1 N; [lia|]. cbn [unique].
  destruct (Reqb (a_zu a k) (a_zu a (k + 1)%nat)) eqn:E.
  - apply Reqb_true in E. destruct Hka as [Hka|[-> Z]]; [|exfalso; now apply (H1 Z)].
    assert (N2 := neat_close a k ltac:(lia) N E).
    set (a2 := Adj _ _ _ _) in *. cbn [a_iu] in *. replace (a_iu a2) with (a_iu a - 1)%nat by easy.
    destruct (Nat.ltb_spec k (a_iu a - 1)) as [L|L].
    + apply IH; try easy; cbn [a2 a_iu]; lia.
    + exists a2. split; [easy|]. replace (a_iu a2) with k by (cbn [a2 a_iu]; lia). easy.
  - apply Reqb_false in E. destruct N as (A & B & C & D & F).
    assert (N2 : neat a (if (k <? a_iu a)%nat then (k + 1)%nat else k)).
    { split; [easy|]. split; [easy|]. split; [|now split]. intros i Hi. destruct (Nat.ltb_spec k (a_iu a)) as [L|L]; [|apply C; lia].
      destruct (Nat.eq_dec i k) as [->|N0]; [assert (X := B k ltac:(lia)); lra | apply C; lia]. }
    destruct (Nat.ltb_spec (k + 1) (a_iu a)) as [L|L].
    + replace (k <? a_iu a)%nat with true in N2 by (symmetry; apply Nat.ltb_lt; lia). apply IH; try easy; lia.
    + exists a. split; [easy|]. destruct (Nat.ltb_spec k (a_iu a)) as [L2|L2]; [replace (a_iu a) with (k + 1)%nat by lia; easy|].
      replace (a_iu a) with k by lia. easy.
Qed.
End Unique.

Lemma neat_lists good (l : list R) a : neat good (fun t => In t l) a (a_iu a) -> lists_all l (a_zu a) (a_iu a).
Proof. intros (A & B & C & D & E). now split. Qed.
Lemma lists_length l z n : NoDup l -> lists_all l z n -> n = length l.
Proof.
  intros ND [A B].
  assert (M : forall i j, (1 <= i < j)%nat -> (j <= n)%nat -> z i < z j).
  { intros i j Hi Hj. induction j as [|j IH]; [lia|]. assert (X := A j). replace (j + 1)%nat with (S j) in X by lia.
    destruct (Nat.eq_dec i j) as [->|N]; [apply X; lia|]. specialize (IH ltac:(lia) ltac:(lia)). specialize (X ltac:(lia)). lra. }
  assert (ND2 : NoDup (map z (seq 1 n))).
  { apply NoDup_nth with 0. rewrite map_length, seq_length. intros i j Hi Hj E.
    rewrite !(nth_indep _ 0 (z 0%nat)) in E by (now rewrite map_length, seq_length). rewrite !map_nth, !seq_nth in E by easy.
    destruct (Nat.lt_trichotomy i j) as [L|[L|L]]; [|easy|].
    - assert (X := M (1 + i)%nat (1 + j)%nat ltac:(lia) ltac:(lia)). lra.
    - assert (X := M (1 + j)%nat (1 + i)%nat ltac:(lia) ltac:(lia)). lra. }
  assert (P : Permutation (map z (seq 1 n)) l).
  { apply NoDup_Permutation; [easy | easy|]. intros t. rewrite B, in_map_iff. split; intros [i [H1 H2]].
    - exists i. apply in_seq in H2. split; [lia | easy].
    - exists i. split; [easy | apply in_seq; lia]. }
  apply Permutation_length in P. rewrite map_length, seq_length in P. easy.
Qed.
